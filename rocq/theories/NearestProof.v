(** Proofs about the k-nearest traversal. *)
From Verif Require Export TraversalProof HeapProof.

Definition rng (q : nat * nat) : list nat := seq (fst q) (S (snd q) - fst q).

Lemma rng_elem p l r : l <= r -> p ∈ rng (l, r) <-> l <= p <= r.
Proof. intros H. unfold rng. simpl. rewrite elem_of_seq. lia. Qed.
Lemma rng_split l s r : l <= s < r -> rng (l, r) = rng (l, s) ++ rng (S s, r).
Proof.
  intros H. unfold rng. cbn [fst snd]. replace (S r - l) with ((S s - l) + (S r - S s)) by lia.
  rewrite seq_app. by replace (l + (S s - l)) with (S s) by lia.
Qed.

Section Near.
Context {V D : Type} (le : V -> V -> Prop) (vol : nat -> V) (perm : list nat) (T : tree V).
Hypothesis VT : ValidTree le vol perm T.
Hypothesis n_ge : 2 <= length perm.
Variables (ltb : D -> D -> bool) (zero inf : D) (dl : nat -> D) (dv : V -> D) (k cap : nat).
Hypothesis SW : StrictWeak ltb.
Hypothesis DS : DistSafe le vol ltb dl dv.
Hypothesis k_pos : 1 <= k.
Hypothesis zero_inf : ltb zero inf = true.

Definition val (p : nat) : nat := default 0 (perm !! p).
Definition dp (p : nat) : D := dl (val p).
Notation n := (length perm).
Notation cmpn := (cmp_near ltb).

Lemma SWn : StrictWeak cmpn.
Proof. constructor; intros *; unfold cmp_near; apply SW. Qed.

Lemma val_spec p : p < n -> perm !! p = Some (val p).
Proof. intros H. unfold val. by destruct (lookup_lt_is_Some_2 perm p H) as [o ->]. Qed.

(** heap part of the invariant, for processed leaf positions [P] *)
Record HB (P : list nat) (b : kbest) : Prop := {
  hb_ord : HeapOrd cmpn (kb_heap b) (length (kb_heap b));
  hb_len : length (kb_heap b) <= k;
  hb_dist : forall p d, (p, d) ∈ kb_heap b -> d = dp p /\ ltb d inf = true;
  hb_rad : kb_radius b = match kb_heap b with
                         | t :: _ => if length (kb_heap b) =? k then snd t else inf | [] => inf end;
  hb_rest : exists rest, P ≡ₚ map fst (kb_heap b) ++ rest /\ forall p, p ∈ rest -> ltb (dp p) (kb_radius b) = false }.

Lemma HB_perm P P' b : P ≡ₚ P' -> HB P b -> HB P' b.
Proof. intros HP [A B C E (rest & F & G)]. constructor; auto. exists rest. split; [by rewrite <- HP|done]. Qed.

Lemma HB_prune P b l : HB P b -> (forall p, p ∈ l -> ltb (dp p) (kb_radius b) = false) -> HB (l ++ P) b.
Proof.
  intros [A B C E (rest & F & G)] H. constructor; auto. exists (l ++ rest). split.
  - rewrite F. rewrite !app_assoc. apply Permutation_app_tail, Permutation_app_comm.
  - intros p [?|?]%elem_of_app; auto.
Qed.

Lemma HB_rad_fin P b d : HB P b -> ltb d (kb_radius b) = true -> ltb d inf = true.
Proof.
  intros [A B C E _] H. rewrite E in H. destruct (kb_heap b) as [|t h] eqn:Eh; [done|].
  destruct (length _ =? k); [|done]. eapply (sw_trans _ SW); [exact H|].
  destruct t as [p d']. apply (C p d'). left.
Qed.

Lemma not_lt_trans x y z : ltb x y = false -> ltb y z = false -> ltb x z = false.
Proof. apply SW. Qed.
Lemma lt_asym x y : ltb x y = true -> ltb y x = false.
Proof. intros H. destruct (ltb y x) eqn:E; [|done]. rewrite <- (sw_irrefl _ SW x). symmetry. eapply (sw_trans _ SW); eauto. Qed.

Lemma kb_insert_ok P b p : HB P b -> ltb (dp p) (kb_radius b) = true ->
  exists b', kb_insert ltb k b p (dp p) = Some b' /\ HB (p :: P) b' /\ ltb (kb_radius b) (kb_radius b') = false.
Proof.
  intros HBb Hlt. pose proof (HB_rad_fin _ _ _ HBb Hlt) as Hfin. destruct HBb as [A B C E (rest & F & G)].
  unfold kb_insert. destruct (Nat.ltb_spec (length (kb_heap b)) k) as [Hs|Hs].
  - destruct (pq_push_correct cmpn SWn k (kb_heap b) (p, dp p) Hs A) as (h & Eh & Ph & Oh). rewrite Eh. simpl.
    assert (length h = S (length (kb_heap b))) as Lh by (by rewrite Ph).
    assert (kb_radius b = inf) as Er.
    { rewrite E. destruct (kb_heap b); [done|]. destruct (Nat.eqb_spec (length (p0 :: l)) k); [lia|done]. }
    assert (forall q d, (q, d) ∈ h -> d = dp q /\ ltb d inf = true) as Ch.
    { intros q d Hq. rewrite Ph in Hq. apply elem_of_cons in Hq as [Hq|Hq]; [injection Hq as -> ->; done|auto]. }
    destruct (Nat.eqb_spec (length h) k) as [Hk|Hk].
    + unfold pq_top. destruct h as [|t h']; [simpl in Lh; lia|]. simpl. eexists. split; [done|].
      assert (ltb (snd t) inf = true) as Htf. { destruct t as [q d]. apply (Ch q d). left. }
      split.
      * constructor; cbn [kb_heap kb_radius]; auto; [lia| |].
        -- rewrite Hk. by rewrite Nat.eqb_refl.
        -- exists rest. split.
           ++ rewrite F. change (fst t :: map fst h') with (map fst (t :: h')). by rewrite Ph.
           ++ intros q Hq. specialize (G q Hq). rewrite Er in G. eapply not_lt_trans; [exact G|]. by apply lt_asym.
      * simpl. rewrite Er. by apply lt_asym.
    + eexists. split; [done|]. split.
      * constructor; cbn [kb_heap kb_radius]; auto; [lia| |].
        -- rewrite Er. destruct h; [done|]. destruct (Nat.eqb_spec (length (p0 :: h)) k); [lia|done].
        -- exists rest. split; [|done]. rewrite F, Ph. done.
      * simpl. rewrite Er. apply SW.
  - assert (length (kb_heap b) = k) as Hk by lia. destruct (kb_heap b) as [|t h0] eqn:Eh0; [simpl in *; lia|].
    destruct (pq_popPush_correct cmpn SWn (t :: h0) (p, dp p) t A eq_refl) as (h & Eh & Ph & Oh & Lh). rewrite Eh. simpl.
    rewrite <- Lh in Hk. destruct (Nat.eqb_spec (length h) k); [|lia].
    destruct h as [|t' h']; [simpl in *; lia|]. unfold pq_top. simpl. eexists. split; [done|].
    assert (kb_radius b = snd t) as Er. { rewrite E. rewrite <- Lh, Hk. by rewrite Nat.eqb_refl. }
    assert (Maximal cmpn t (t :: h0)) as Hmax by (apply pq_top_max; [apply SWn|done|done]).
    assert (forall x, x ∈ t' :: h' -> ltb (snd t) (snd x) = false) as Hle.
    { intros x Hx. assert (x ∈ (p, dp p) :: t :: h0) as Hx' by (rewrite <- Ph; by right).
      apply elem_of_cons in Hx' as [->|Hx']; [simpl; rewrite Er in Hlt; by apply lt_asym|]. apply (Hmax x Hx'). }
    split.
    + constructor; cbn [kb_heap kb_radius]; auto.
      * lia.
      * intros q d Hq. assert ((q, d) ∈ (p, dp p) :: t :: h0) as Hx' by (rewrite <- Ph; by right).
        apply elem_of_cons in Hx' as [Hx'|Hx']; [injection Hx' as -> ->; done|auto].
      * rewrite Hk. by rewrite Nat.eqb_refl.
      * exists (fst t :: rest). split.
        -- rewrite F. change (fst t' :: map fst h') with (map fst (t' :: h')).
           change (p :: map fst (t :: h0) ++ rest) with (map fst ((p, dp p) :: t :: h0) ++ rest). rewrite <- Ph.
           apply (Permutation_middle (map fst (t' :: h')) rest (fst t)).
        -- intros q Hq. apply elem_of_cons in Hq as [->|Hq].
           ++ destruct t as [q d]. destruct (C q d ltac:(left)) as [-> _]. simpl. rewrite Er in *. apply (Hle t'). left.
           ++ specialize (G q Hq). eapply not_lt_trans; [exact G|]. rewrite Er. apply (Hle t'). left.
    + simpl. rewrite Er. apply (Hle t'). left.
Qed.

Definition low (d : D) (l r : nat) : Prop := forall p, l <= p <= r -> ltb (dp p) d = false.

Lemma node_dist i l r rp : Covers T i l r rp -> exists d, node_distance T dl dv i = Some d /\ low d l r /\
  (isLeaf T i = true -> d = dp i).
Proof.
  intros HC. unfold node_distance. destruct (isLeaf T i) eqn:HL.
  - destruct (leaf_case le vol perm T VT _ _ _ _ HC HL) as (-> & -> & o & Ho & -> & _). simpl. exists (dl o).
    split; [done|]. assert (val i = o) as Hv by (unfold val; by rewrite Ho). split.
    + intros p Hp. assert (p = i) as -> by lia. unfold dp. rewrite Hv. apply SW.
    + intros _. unfold dp. by rewrite Hv.
  - destruct (node_case le vol perm T VT _ _ _ _ HC HL) as (s & c1 & c2 & v & Hs & _ & _ & _ & -> & [Hh _] & _).
    simpl. exists (dv v). split; [done|]. split; [|done]. intros p Hp. apply DS. apply (Hh p); [done|]. apply val_spec.
    pose proof (Covers_range le vol perm T VT _ _ _ _ HC). lia.
Qed.


Lemma offer_ok P b c l r rp d : HB P b -> Covers T c l r rp -> low d l r -> (isLeaf T c = true -> d = dp c) ->
  exists b' t, offer T ltb k b c d = Some (b', t) /\ ltb (kb_radius b) (kb_radius b') = false /\
    (t = false -> HB (rng (l, r) ++ P) b') /\ (t = true -> b' = b /\ l < r).
Proof.
  intros HBb HC Hlow Hd. unfold offer. pose proof (Covers_range le vol perm T VT _ _ _ _ HC) as Hlr.
  destruct (ltb d (kb_radius b)) eqn:Hlt.
  - destruct (isLeaf T c) eqn:HL.
    + destruct (leaf_case le vol perm T VT _ _ _ _ HC HL) as (-> & -> & _). rewrite (Hd eq_refl) in *.
      destruct (kb_insert_ok P b c HBb Hlt) as (b' & -> & HB' & Hr). simpl. exists b', false. split; [done|].
      split; [done|]. split; [|done]. intros _. unfold rng. simpl fst. simpl snd. replace (S c - c) with 1 by lia. done.
    + exists b, true. split; [done|]. split; [apply SW|]. split; [done|]. intros _. split; [done|].
      destruct (node_case le vol perm T VT _ _ _ _ HC HL) as (s & _ & _ & _ & ? & _). lia.
  - exists b, false. split; [done|]. split; [apply SW|]. split; [|done]. intros _. apply HB_prune; [done|].
    intros p Hp. apply rng_elem in Hp; [|lia]. eapply not_lt_trans; [by apply Hlow|done].
Qed.

Definition Pend (q : nat * D) (rr : nat * nat) : Prop :=
  exists rp, Covers T (fst q) (fst rr) (snd rr) rp /\ fst rr < snd rr /\ low (snd q) (fst rr) (snd rr).
Definition work (rs : list (nat * nat)) : nat := sum_list_with (fun q => snd q - fst q) rs.


Lemma nearest_loop_ok fuel : forall node dn stack b P l r rs,
  work ((l, r) :: rs) <= fuel -> HB P b ->
  (exists rp, Covers T node l r rp) -> l < r -> (low dn l r \/ ltb dn (kb_radius b) = true) ->
  Forall2 Pend stack rs -> P ++ flat_map rng ((l, r) :: rs) ≡ₚ seq 0 n ->
  nearest_loop T ltb dl dv k cap fuel node dn stack b = Overflow \/
  exists b', nearest_loop T ltb dl dv k cap fuel node dn stack b = Ok b' /\ HB (seq 0 n) b'.
Proof.
  induction fuel as [|fuel IH]; intros node dn stack b P l r rs Hw HBb [rp HC] Hlr Hdn HF HP.
  { unfold work in Hw. simpl in Hw. lia. }
  assert (Hpop : forall b' P', HB P' b' -> P' ++ flat_map rng rs ≡ₚ seq 0 n ->
    let e := match stack with [] => Ok b' | (n', d') :: stack' => nearest_loop T ltb dl dv k cap fuel n' d' stack' b' end in
    e = Overflow \/ exists b'', e = Ok b'' /\ HB (seq 0 n) b'').
  { intros b' P' HB' HP' e. unfold e. clear e. inversion HF as [|[n' d'] [l' r'] stack' rs' (rp' & HC' & Hlr' & Hlow') HF']; subst.
    - right. exists b'. split; [done|]. simpl in HP'. rewrite app_nil_r in HP'. by eapply HB_perm.
    - simpl in HC', Hlr', Hlow'. eapply (IH n' d' stack' b' P' l' r' rs'); eauto. unfold work in *. simpl in *. lia. }
  cbn [nearest_loop]. destruct (ltb dn (kb_radius b)) eqn:Hlt.
  2:{ destruct Hdn as [Hlow|?]; [|done]. apply (Hpop b (rng (l, r) ++ P)).
      - apply HB_prune; [done|]. intros p Hp. apply rng_elem in Hp; [|lia]. eapply not_lt_trans; [by apply Hlow|done].
      - rewrite <- HP. simpl. rewrite app_assoc. f_equiv. apply Permutation_app_comm. }
  destruct (isLeaf T node) eqn:HLeaf.
  { destruct (leaf_case le vol perm T VT _ _ _ _ HC HLeaf) as (-> & -> & _). lia. }
  destruct (node_case le vol perm T VT _ _ _ _ HC HLeaf) as (s & lc & rc & v & Hs & -> & -> & _ & _ & _ & C1 & C2).
  destruct (node_dist _ _ _ _ C1) as (dL & -> & HlowL & HdL). destruct (node_dist _ _ _ _ C2) as (dR & -> & HlowR & HdR).
  destruct (offer_ok P b lc _ _ _ dL HBb C1 HlowL HdL) as (b1 & tl & -> & Hr1 & Hf1 & Ht1).
  set (P1 := if tl then P else rng (l, s) ++ P).
  assert (HB P1 b1) as HB1. { unfold P1. destruct tl; [by destruct (Ht1 eq_refl) as [-> _]|auto]. }
  destruct (offer_ok P1 b1 rc _ _ _ dR HB1 C2 HlowR HdR) as (b2 & tr & -> & Hr2 & Hf2 & Ht2).
  set (P2 := if tr then P1 else rng (S s, r) ++ P1).
  assert (HB P2 b2) as HB2. { unfold P2. destruct tr; [by destruct (Ht2 eq_refl) as [-> _]|auto]. }
  simpl in HP. rewrite (rng_split l s r) in HP by lia.
  unfold work in Hw. simpl in Hw.
  subst P2 P1. destruct tl, tr; cbn [orb andb negb].
  - destruct (Nat.ltb_spec (length stack + 1) cap); [|by left].
    destruct (negb (ltb dR dL) || false) eqn:Ego.
    + apply (IH lc dL ((rc, dR) :: stack) b2 P l s ((S s, r) :: rs)); eauto.
      * unfold work. simpl. lia.
      * by destruct (Ht1 eq_refl).
      * constructor; [|done]. exists rp. simpl. split; [done|]. split; [by destruct (Ht2 eq_refl)|done].
      * simpl. rewrite <- HP. by rewrite <- !app_assoc.
    + apply (IH rc dR ((lc, dL) :: stack) b2 P (S s) r ((l, s) :: rs)); eauto.
      * unfold work. simpl. lia.
      * by destruct (Ht2 eq_refl).
      * constructor; [|done]. exists (Some rc). simpl. split; [done|]. split; [by destruct (Ht1 eq_refl)|done].
      * simpl. rewrite <- HP. rewrite <- !app_assoc. f_equiv. rewrite !app_assoc. f_equiv. apply Permutation_app_comm.
  - destruct (Ht1 eq_refl) as [-> ?]. rewrite orb_true_r. 
    apply (IH lc dL stack b2 (rng (S s, r) ++ P) l s rs); eauto.
    + unfold work. simpl. lia.
    + simpl. rewrite <- HP. rewrite <- !app_assoc. rewrite (Permutation_app_comm (rng (S s, r))).
      rewrite <- !app_assoc. f_equiv. rewrite !app_assoc. rewrite (Permutation_app_comm (rng (l,s) ++ flat_map rng rs)).
      rewrite app_assoc. f_equiv. apply Permutation_app_comm.
  - destruct (Ht2 eq_refl) as [-> ?].
    apply (IH rc dR stack b1 (rng (l, s) ++ P) (S s) r rs); eauto.
    + unfold work. simpl. lia.
    + simpl. rewrite <- HP. rewrite <- !app_assoc. rewrite !app_assoc. f_equiv. f_equiv. apply Permutation_app_comm.
  - apply (Hpop b2 (rng (S s, r) ++ rng (l, s) ++ P)); [done|].
    rewrite <- HP. rewrite !app_assoc. f_equiv. rewrite (Permutation_app_comm _ P). rewrite <- app_assoc. f_equiv.
    apply Permutation_app_comm.
Qed.

Lemma map_val : map val (seq 0 n) = perm.
Proof.
  apply list_eq. intros i. rewrite list_lookup_fmap. destruct (decide (i < n)) as [Hi|Hi].
  - rewrite lookup_seq_lt by done. simpl. by rewrite val_spec.
  - rewrite lookup_seq_ge by lia. simpl. symmetry. apply lookup_ge_None. lia.
Qed.

Lemma mapM_values (h : list (nat * D)) : (forall q, q ∈ h -> fst q < n) ->
  mapM (fun p => getValue T (fst p)) h = Some (map val (map fst h)).
Proof.
  intros H. induction h as [|q h IH]; [done|]. simpl. rewrite (vt_values _ _ _ _ VT), val_spec by (apply H; left).
  simpl. rewrite IH; [done|]. intros q' Hq'. apply H. by right.
Qed.

Lemma filter_len_app (Q : nat -> Prop) `{!forall x, Decision (Q x)} a b :
  length (base.filter Q (a ++ b)) = length (base.filter Q a) + length (base.filter Q b).
Proof. by rewrite filter_app, app_length. Qed.

Lemma nearest_query_correct :
  nearest_query T ltb zero inf dl dv k cap = Overflow \/
  exists out, nearest_query T ltb zero inf dl dv k cap = Ok out /\ KNearest ltb inf dl k perm out.
Proof.
  unfold nearest_query. destruct (Nat.ltb_spec k 1); [lia|].
  pose proof (vt_size _ _ _ _ VT) as HS. destruct (t_size T) as [|[|m]] eqn:Et; [lia..|].
  assert (HB [] {| kb_heap := []; kb_radius := inf |}) as HB0.
  { constructor; cbn [kb_heap kb_radius]; auto.
    - intros i j x y Hj. simpl in Hj. lia.
    - simpl. lia.
    - intros p d Hp. by apply elem_of_nil in Hp.
    - exists []. split; [done|]. intros p Hp. by apply elem_of_nil in Hp. }
  destruct (nearest_loop_ok (S (S m)) (getRoot T) zero [] _ [] 0 (n - 1) [] ltac:(unfold work; simpl; lia) HB0
              (ex_intro _ _ (vt_root _ _ _ _ VT)) ltac:(lia) ltac:(by right) ltac:(constructor)) as [->|(b & -> & HBb)].
  { cbn [flat_map app]. rewrite app_nil_r. unfold rng. cbn [fst snd]. by replace (S (n - 1) - 0) with n by lia. }
  { by left. }
  right. destruct HBb as [HO HL HD HR (rest & HP & HG)].
  destruct (sortHeap_correct cmpn SWn (length (kb_heap b)) (kb_heap b) (le_n _) HO) as (h & -> & Ph & Lh & _ & Hsort).
  assert (forall q, q ∈ h -> fst q < n /\ snd q = dp (fst q) /\ ltb (snd q) inf = true) as Hq.
  { intros [p d] Hin. rewrite Ph in Hin. destruct (HD p d Hin) as [-> Hf]. split; [|done]. simpl.
    assert (p ∈ seq 0 n) as Hp by (rewrite HP; apply elem_of_app; left; apply (elem_of_list_fmap_1 fst _ _ Hin)).
    apply elem_of_seq in Hp. lia. }
  rewrite mapM_values by (intros q Hin; by apply Hq). eexists. split; [done|].
  set (out := map val (map fst h)).
  assert (perm ≡ₚ out ++ map val rest) as Hsub.
  { rewrite <- map_val. rewrite HP. rewrite map_app. f_equiv. unfold out. by rewrite Ph. }
  assert (forall a, a ∈ out -> exists q, q ∈ h /\ dl a = snd q) as Hout.
  { intros a Ha. apply elem_of_list_fmap in Ha as (p & -> & Hp). apply elem_of_list_fmap in Hp as (q & -> & Hin).
    exists q. split; [done|]. by destruct (Hq q Hin) as (_ & -> & _). }
  assert (length out = length (kb_heap b)) as Lout by (unfold out; by rewrite !map_length).
  assert (forall a, a ∈ out -> ltb (dl a) inf = true) as Hfin.
  { intros a Ha. destruct (Hout a Ha) as (q & Hin & ->). by apply Hq. }
  assert (forall a p, a ∈ out -> p ∈ rest -> ltb (dp p) (dl a) = false) as Hmin.
  { intros a p Ha Hp. specialize (HG p Hp). destruct (Hout a Ha) as (q & Hin & ->).
    eapply not_lt_trans; [exact HG|]. rewrite HR.
    assert (ltb inf (snd q) = false) as Hqi by (apply lt_asym; by apply Hq).
    destruct (kb_heap b) as [|t h0] eqn:Eh; [done|]. destruct (_ =? k); [|done].
    rewrite Ph in Hin. exact (pq_top_max cmpn SWn (t :: h0) t HO eq_refl q Hin). }
  constructor.
  - exists (map val rest). done.
  - set (fin := fun o => ltb (dl o) inf = true).
    assert (length (base.filter fin perm) = length out + length (base.filter fin (map val rest))) as El.
    { rewrite (Permutation_length (filter_Permutation fin _ _ Hsub)). rewrite filter_len_app. f_equal.
      clear -Hfin. unfold fin. clearbody out. induction out as [|a l IH]; [done|].
      rewrite filter_cons_True by (apply Hfin; left). simpl. f_equal. apply IH. intros x Hx. apply Hfin. by right. }
    rewrite El. fold out. destruct (decide (length out = k)) as [->|Hk]; [lia|].
    assert (base.filter fin (map val rest) = []) as ->.
    { assert (kb_radius b = inf) as Er.
      { rewrite HR. destruct (kb_heap b); [done|]. destruct (Nat.eqb_spec (length (p :: l)) k); [lia|done]. }
      destruct (base.filter fin (map val rest)) as [|x xs] eqn:Ef; [done|exfalso].
      assert (x ∈ base.filter fin (map val rest)) as Hx by (rewrite Ef; left).
      apply elem_of_list_filter in Hx as [Hfx Hx]. apply elem_of_list_fmap in Hx as (p & -> & Hp).
      specialize (HG p Hp). rewrite Er in HG. unfold fin, dp in *. congruence. }
    simpl. lia.
  - done.
  - intros i j x y Hij Hx Hy. unfold out in Hx, Hy. rewrite <- list_fmap_compose in Hx, Hy.
    rewrite list_lookup_fmap in Hx, Hy.
    destruct (h !! i) as [qi|] eqn:Ei; [|done]. destruct (h !! j) as [qj|] eqn:Ej; [|done].
    simpl in Hx, Hy. injection Hx as <-. injection Hy as <-.
    destruct (Hq qi) as (_ & E1 & _); [by eapply elem_of_list_lookup_2|].
    destruct (Hq qj) as (_ & E2 & _); [by eapply elem_of_list_lookup_2|].
    unfold compose. fold (dp (fst qi)) (dp (fst qj)). rewrite <- E1, <- E2.
    apply (Hsort i j qi qj Hij); [|done|done]. apply lookup_lt_Some in Ej. lia.
  - intros rest' HP' a b0 Ha Hb.
    assert (rest' ≡ₚ map val rest) as Hr'.
    { apply (Permutation_app_inv_l out). rewrite <- HP'. done. }
    rewrite Hr' in Hb. apply elem_of_list_fmap in Hb as (p & -> & Hp). by apply Hmin.
Qed.
End Near.

(** The stack: the number of entries is bounded by the height of the tree. *)
Inductive HeightLe {V} (T : tree V) : nat -> nat -> Prop :=
| hl_leaf i h : isLeaf T i = true -> HeightLe T i h
| hl_node i h lc rc : isLeaf T i = false -> getLeftChild T i = Some lc -> getRightChild T i = Some (Some rc) ->
    HeightLe T lc h -> HeightLe T rc h -> HeightLe T i (S h).

Section Stack.
Context {V D : Type} (T : tree V).
Variables (ltb : D -> D -> bool) (dl : nat -> D) (dv : V -> D) (k cap H : nat).
Hypothesis Hcap : H <= cap.

Fixpoint StackOk (stack : list (nat * D)) : Prop :=
  match stack with
  | [] => True
  | (i, _) :: stack' => (exists h, HeightLe T i h /\ length stack' + h <= H) /\ StackOk stack'
  end.

Lemma HeightLe_inv i h lc rc : HeightLe T i h -> isLeaf T i = false -> getLeftChild T i = Some lc ->
  getRightChild T i = Some (Some rc) -> exists h', h = S h' /\ HeightLe T lc h' /\ HeightLe T rc h'.
Proof. intros HH. destruct HH; intros; [congruence|]. exists h. split; [done|]. split; congruence. Qed.
Lemma HeightLe_pos i h : HeightLe T i h -> isLeaf T i = false -> 1 <= h.
Proof. intros HH. destruct HH; [congruence|lia]. Qed.
Lemma offer_internal b c d b' : offer T ltb k b c d = Some (b', true) -> isLeaf T c = false.
Proof.
  unfold offer. destruct (ltb _ _); [|done]. destruct (isLeaf T c); [|done]. by destruct (kb_insert _ _ _ _ _).
Qed.
Lemma leftchild_internal i lc : getLeftChild T i = Some lc -> isLeaf T i = false.
Proof. unfold getLeftChild. by destruct (isLeaf T i). Qed.

Lemma nearest_no_overflow fuel : forall node dn stack b h,
  HeightLe T node h -> length stack + h <= H -> StackOk stack ->
  nearest_loop T ltb dl dv k cap fuel node dn stack b <> Overflow.
Proof.
  induction fuel as [|fuel IH]; intros node dn stack b h HH HL HS; [done|]. cbn [nearest_loop].
  assert (Hpop : forall b', match stack with [] => Ok b' | (n', d') :: stack' => nearest_loop T ltb dl dv k cap fuel n' d' stack' b' end <> Overflow).
  { intros b'. destruct stack as [|[n' d'] stack']; [done|]. destruct HS as [(h' & A & B) C]. eapply IH; eauto. }
  destruct (ltb dn (kb_radius b)); [|apply Hpop].
  destruct (getLeftChild T node) as [lc|] eqn:EL; [|done]. destruct (getRightChild T node) as [[rc|]|] eqn:ER; try done.
  destruct (HeightLe_inv _ _ _ _ HH (leftchild_internal _ _ EL) EL ER) as (h' & -> & H1 & H2).
  destruct (node_distance T dl dv lc) as [dL|]; [|done]. destruct (node_distance T dl dv rc) as [dR|]; [|done].
  destruct (offer T ltb k b lc dL) as [[b1 tl]|] eqn:E1; [|done]. destruct (offer T ltb k b1 rc dR) as [[b2 tr]|] eqn:E2; [|done].
  destruct tl, tr; cbn [orb andb negb]; [| | |apply Hpop].
  - pose proof (HeightLe_pos _ _ H1 (offer_internal _ _ _ _ E1)).
    destruct (Nat.ltb_spec (length stack + 1) cap); [|lia].
    destruct (negb (ltb dR dL) || false).
    + eapply IH; [exact H1|simpl; lia|]. simpl. split; [|done]. exists h'. split; [done|lia].
    + eapply IH; [exact H2|simpl; lia|]. simpl. split; [|done]. exists h'. split; [done|lia].
  - rewrite orb_true_r. eapply IH; [exact H1|lia|done].
  - eapply IH; [exact H2|lia|done].
Qed.

Lemma nearest_query_no_overflow zero inf : HeightLe T (getRoot T) H -> nearest_query T ltb zero inf dl dv k cap <> Overflow.
Proof.
  intros HH. unfold nearest_query. destruct (k <? 1); [done|]. destruct (t_size T) as [|[|m]]; [done|by destruct (getValue T 0)|].
  pose proof (nearest_no_overflow (S (S m)) (getRoot T) zero [] {| kb_heap := []; kb_radius := inf |} H HH ltac:(simpl; lia) I) as Hn.
  destruct (nearest_loop _ _ _ _ _ _ _ _ _ _ _); try done. destruct (sortHeap _ _ _); [|done]. by destruct (mapM _ _).
Qed.
End Stack.
