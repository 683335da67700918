(** Proofs about the spatial and half traversals. *)
From Verif Require Export TraversalSpec TreeConstructionProof.

Section Walk.
Context {V : Type} (le : V -> V -> Prop) (vol : nat -> V) (perm : list nat) (T : tree V).
Hypothesis VT : ValidTree le vol perm T.

Lemma Covers_range i l r rp : Covers T i l r rp -> l <= r /\ r < length perm.
Proof.
  induction 1 as [i rp nd Hi Hl Hr|i l s r rp c2 nd Hi Hn Hr Hs H1 IH1 H2 IH2].
  - rewrite (vt_size _ _ _ _ VT) in Hi. lia.
  - lia.
Qed.

Lemma leaf_case i l r rp : Covers T i l r rp -> isLeaf T i = true -> l = i /\ r = i /\ exists o, perm !! i = Some o /\ getValue T i = Some o /\ getRope T i = Some rp.
Proof.
  intros HC HL. unfold isLeaf in HL. apply Nat.ltb_lt in HL.
  destruct HC as [i rp nd Hi Hl Hr|]; [|lia]. split; [done|]. split; [done|].
  exists (l_value nd). pose proof (vt_values _ _ _ _ VT i) as Hv.
  assert (getValue T i = Some (l_value nd)) as E by (unfold getValue; by rewrite Hl). split; [congruence|]. split; [done|].
  unfold getRope, isLeaf. destruct (Nat.ltb_spec i (t_size T)); [|lia]. rewrite Hl. simpl. by rewrite Hr.
Qed.

Lemma node_case i l r rp : Covers T i l r rp -> isLeaf T i = false ->
  exists s c1 c2 v, l <= s < r /\ getLeftChild T i = Some c1 /\ getRightChild T i = Some (Some c2) /\
    getRope T i = Some rp /\ getVolume T i = Some v /\ IsHull le vol perm v l r /\
    Covers T c1 l s (Some c2) /\ Covers T c2 (S s) r rp.
Proof.
  intros HC HL. pose proof HC as HC'. unfold isLeaf in HL. apply Nat.ltb_ge in HL.
  destruct HC as [|i l s r rp c2 nd Hi Hn Hr Hs H1 H2]; [lia|].
  destruct (vt_hull _ _ _ _ VT _ _ _ _ HC') as (v & Hv & Hh); [lia|].
  assert (getLeftChild T i = Some (n_left nd)) as HLC.
  { unfold getLeftChild, isLeaf. destruct (Nat.ltb_spec i (t_size T)); [lia|]. by rewrite Hn. }
  exists s, (n_left nd), c2, v. split; [done|]. split; [done|]. split; [|split; [|split; [done|split; [done|split; done]]]].
  - unfold getRightChild, isLeaf. destruct (Nat.ltb_spec i (t_size T)); [lia|]. rewrite HLC. simpl.
    destruct (isLeaf T (n_left nd)) eqn:E.
    + by destruct (leaf_case _ _ _ _ H1 E) as (_ & _ & o & _ & _ & ?).
    + unfold isLeaf in E. apply Nat.ltb_ge in E. unfold getRope, isLeaf. destruct (Nat.ltb_spec (n_left nd) (t_size T)); [lia|].
      inversion H1 as [? ? ? Hlt|? ? s1 ? ? c3 nd1 Hge Hn1 Hr1 Hs1 ? ?]; subst; [lia|]. rewrite Hn1. simpl. by rewrite Hr1.
  - unfold getRope, isLeaf. destruct (Nat.ltb_spec i (t_size T)); [lia|]. rewrite Hn. simpl. by rewrite Hr.
Qed.

(** values at leaf positions l..r *)
Definition slice (l r : nat) : list nat := take (S r - l) (drop l perm).
Lemma slice_split l s r : l <= s < r -> slice l r = slice l s ++ slice (S s) r.
Proof.
  intros H. unfold slice. replace (S r - l) with ((S s - l) + (S r - S s)) by lia.
  rewrite <- (take_take_drop (drop l perm)). f_equal. rewrite drop_drop. by replace (l + (S s - l)) with (S s) by lia.
Qed.
Lemma slice_one i o : perm !! i = Some o -> slice i i = [o].
Proof.
  intros H. unfold slice. replace (S i - i) with 1 by lia. rewrite (drop_S _ o) by done. simpl. by rewrite take_0.
Qed.
Lemma slice_elem l r o : o ∈ slice l r -> exists i, l <= i <= r /\ perm !! i = Some o.
Proof.
  intros [j Hj]%elem_of_list_lookup. unfold slice in Hj. apply lookup_take_Some in Hj as [Hj Hlt].
  rewrite lookup_drop in Hj. exists (l + j). split; [lia|done].
Qed.
Lemma slice_all : 0 < length perm -> slice 0 (length perm - 1) = perm.
Proof. intros H. unfold slice. rewrite drop_0. apply take_ge. lia. Qed.

Lemma filter_none (P : nat -> bool) l : (forall o, o ∈ l -> P o = false) -> List.filter P l = [].
Proof. induction l as [|a l IH]; intros H; [done|]. simpl. rewrite (H a) by left. apply IH. intros o Ho. apply H. by right. Qed.

Section SpatialP.
Context {St : Type}.
Variables (pl : nat -> bool) (pv : V -> bool) (cb : St -> nat -> St * bool).
Hypothesis PS : PruneSafe le vol pl pv.

Lemma prune_hull v l r : IsHull le vol perm v l r -> pv v = false -> List.filter pl (slice l r) = [].
Proof.
  intros [H _] Hv. apply filter_none. intros o Ho. apply slice_elem in Ho as (i & Hi & Ho).
  destruct (pl o) eqn:E; [|done]. rewrite (PS o v) in Hv; [done| |done]. eauto.
Qed.

Lemma Visits_app st a st1 b st2 e : Visits cb st a st1 false -> Visits cb st1 b st2 e -> Visits cb st (a ++ b) st2 e.
Proof.
  intros H. remember false as f eqn:Ef. induction H; intros H2; simpl; [done|done|]. econstructor; eauto.
Qed.

(** Walking over the subtree at [i]: either the callback stopped it, or it arrives at the rope. *)
Lemma spatial_walk i l r rp : Covers T i l r rp -> forall st, exists steps, steps <= 2 * (r - l) + 1 /\
  ((exists calls rest st', List.filter pl (slice l r) = calls ++ rest /\ Visits cb st calls st' true /\
       forall f, spatial_loop T pl pv cb (steps + f) (Some i) st = Ok st') \/
   (exists st', Visits cb st (List.filter pl (slice l r)) st' false /\
       forall f, spatial_loop T pl pv cb (steps + f) (Some i) st = spatial_loop T pl pv cb f rp st')).
Proof.
  intros HC. induction HC as [i rp nd Hi Hl Hr|i l s r rp c2 nd Hi Hn Hr Hs H1 IH1 H2 IH2]; intros st.
  - assert (Covers T i i i rp) as HC by (econstructor; eauto).
    destruct (leaf_case _ _ _ _ HC) as (_ & _ & o & Hp & Hv & Hrp); [unfold isLeaf; by apply Nat.ltb_lt|].
    exists 1. split; [lia|]. rewrite (slice_one i o) by done. simpl.
    assert (isLeaf T i = true) as -> by (unfold isLeaf; by apply Nat.ltb_lt). rewrite Hv, Hrp.
    destruct (pl o); [|right; exists st; split; [constructor|done]].
    destruct (cb st o) as [st' [|]] eqn:E.
    + left. exists [o], [], st'. split; [done|]. split; [by constructor|done].
    + right. exists st'. split; [econstructor; [done|constructor]|done].
  - assert (Covers T i l r rp) as HC by (econstructor; eauto).
    assert (isLeaf T i = false) as HL by (unfold isLeaf; apply Nat.ltb_ge; lia).
    destruct (node_case _ _ _ _ HC HL) as (s' & c1 & c2' & v & Hs' & HLC & HRC & Hrope & Hvol & Hh & C1 & C2).
    assert (c1 = n_left nd) as ->.
    { unfold getLeftChild in HLC. rewrite HL in HLC. rewrite Hn in HLC. simpl in HLC. congruence. }
    destruct (pv v) eqn:Epv.
    + destruct (IH1 st) as (k1 & B1 & [ (calls & rest & st' & E & HV & HE) | (st1 & HV1 & HE1) ]).
      * exists (S k1). split; [lia|]. left. exists calls, (rest ++ List.filter pl (slice (S s) r)), st'.
        split; [|split; [done|]].
        -- rewrite (slice_split l s r) by lia. rewrite List.filter_app, E. by rewrite app_assoc.
        -- intros f. simpl. rewrite HL, Hvol, HLC, Hrope, Epv. apply HE.
      * destruct (IH2 st1) as (k2 & B2 & [ (calls & rest & st' & E & HV & HE) | (st2 & HV2 & HE2) ]).
        -- exists (S (k1 + k2)). split; [lia|]. left.
           exists (List.filter pl (slice l s) ++ calls), rest, st'. split; [|split].
           ++ rewrite (slice_split l s r) by lia. rewrite List.filter_app, E. by rewrite app_assoc.
           ++ by eapply Visits_app.
           ++ intros f. simpl. rewrite HL, Hvol, HLC, Hrope, Epv. rewrite <- Nat.add_assoc, HE1. apply HE.
        -- exists (S (k1 + k2)). split; [lia|]. right. exists st2. split.
           ++ rewrite (slice_split l s r) by lia. rewrite List.filter_app. by eapply Visits_app.
           ++ intros f. simpl. rewrite HL, Hvol, HLC, Hrope, Epv. rewrite <- Nat.add_assoc, HE1. apply HE2.
    + exists 1. split; [lia|]. right. exists st. rewrite (prune_hull _ _ _ Hh Epv). split; [constructor|].
      intros f. simpl. by rewrite HL, Hvol, HLC, Hrope, Epv.
Qed.
End SpatialP.

Section HalfP.
Variables (pl : nat -> nat -> bool) (pv : nat -> V -> bool).
Hypothesis PS : forall a, PruneSafe le vol (pl a) (pv a).

Definition pairs_with (a : nat) (l : list nat) : list (nat * nat) := map (pair a) (List.filter (pl a) l).
Lemma pairs_app a l1 l2 : pairs_with a (l1 ++ l2) = pairs_with a l1 ++ pairs_with a l2.
Proof. unfold pairs_with. by rewrite List.filter_app, map_app. Qed.

Definition radd (a : list (nat*nat)) (r : res (list (nat*nat))) : res (list (nat*nat)) :=
  match r with Ok l => Ok (a ++ l) | r => r end.
Lemma radd_app a b r : radd (a ++ b) r = radd a (radd b r).
Proof. destruct r; simpl; try done. by rewrite app_assoc. Qed.
Lemma radd_nil r : radd [] r = r.
Proof. by destruct r. Qed.

Lemma half_walk a i l r rp : Covers T i l r rp -> exists steps, steps <= 2 * (r - l) + 1 /\
  forall f, half_loop T pl pv (steps + f) a (Some i) = radd (pairs_with a (slice l r)) (half_loop T pl pv f a rp).
Proof.
  intros HC. induction HC as [i rp nd Hi Hl Hr|i l s r rp c2 nd Hi Hn Hr Hs H1 IH1 H2 IH2].
  - assert (Covers T i i i rp) as HC by (econstructor; eauto).
    destruct (leaf_case _ _ _ _ HC) as (_ & _ & o & Hp & Hv & Hrp); [unfold isLeaf; by apply Nat.ltb_lt|].
    exists 1. split; [lia|]. intros f. rewrite (slice_one i o) by done. simpl.
    assert (isLeaf T i = true) as -> by (unfold isLeaf; by apply Nat.ltb_lt). rewrite Hv, Hrp.
    unfold pairs_with. simpl. destruct (pl a o); by destruct (half_loop T pl pv f a rp).
  - assert (Covers T i l r rp) as HC by (econstructor; eauto).
    assert (isLeaf T i = false) as HL by (unfold isLeaf; apply Nat.ltb_ge; lia).
    destruct (node_case _ _ _ _ HC HL) as (s' & c1 & c2' & v & Hs' & HLC & HRC & Hrope & Hvol & Hh & C1 & C2).
    assert (c1 = n_left nd) as ->.
    { unfold getLeftChild in HLC. rewrite HL in HLC. rewrite Hn in HLC. simpl in HLC. congruence. }
    destruct (pv a v) eqn:Epv.
    + destruct IH1 as (k1 & B1 & E1), IH2 as (k2 & B2 & E2). exists (S (k1 + k2)). split; [lia|].
      intros f. simpl. rewrite HL, Hvol, HLC, Hrope, Epv. rewrite <- Nat.add_assoc, E1, E2.
      rewrite (slice_split l s r) by lia. by rewrite pairs_app, radd_app.
    + exists 1. split; [lia|]. intros f. simpl. rewrite HL, Hvol, HLC, Hrope, Epv.
      unfold pairs_with. rewrite (prune_hull (pl a) (pv a) (PS a) _ _ _ Hh Epv). simpl. by rewrite radd_nil.
Qed.

(** From the rope of leaf [p] inside a subtree, the walk covers the leaves after [p]. *)
Lemma half_from a p i l r rp : Covers T i l r rp -> l <= p <= r ->
  exists steps rp0, getRope T p = Some rp0 /\ steps <= 2 * (r - p) /\
  forall f, half_loop T pl pv (steps + f) a rp0 = radd (pairs_with a (slice (S p) r)) (half_loop T pl pv f a rp).
Proof.
  intros HC. revert p. induction HC as [i rp nd Hi Hl Hr|i l s r rp c2 nd Hi Hn Hr Hs H1 IH1 H2 IH2]; intros p Hp.
  - assert (p = i) as -> by lia. exists 0, rp.
    assert (Covers T i i i rp) as HC by (econstructor; eauto).
    destruct (leaf_case _ _ _ _ HC) as (_ & _ & o & _ & Hv & Hrp); [unfold isLeaf; by apply Nat.ltb_lt|].
    split; [done|]. split; [lia|]. intros f. unfold slice. replace (S i - S i) with 0 by lia.
    rewrite take_0. simpl. unfold pairs_with. simpl. by rewrite radd_nil.
  - destruct (decide (p <= s)) as [Hps|Hps].
    + destruct (IH1 p ltac:(lia)) as (k1 & rp0 & Hrp & B & E).
      destruct (half_walk a _ _ _ _ H2) as (k2 & B2 & E2).
      exists (k1 + k2), rp0. split; [done|]. split; [lia|]. intros f. rewrite <- Nat.add_assoc, E, E2.
      destruct (decide (p = s)) as [->|Hne].
      * assert (slice (S s) s = []) as -> by (unfold slice; replace (S s - S s) with 0 by lia; by rewrite take_0).
        unfold pairs_with at 1. simpl. by rewrite radd_nil.
      * rewrite (slice_split (S p) s r) by lia. by rewrite pairs_app, radd_app.
    + apply IH2. lia.
Qed.
End HalfP.
End Walk.

Section Top.
Context {V : Type} (le : V -> V -> Prop) (vol : nat -> V) (perm : list nat) (T : tree V).

Lemma spatial_query_correct {St} pl pv (cb : St -> nat -> St * bool) : Index le vol perm T -> PruneSafe le vol pl pv ->
  forall st, exists calls rest st' e, spatial_query T pl pv cb st = Ok st' /\
    List.filter pl perm = calls ++ rest /\ Visits cb st calls st' e /\ (e = false -> rest = []).
Proof.
  intros HI PS st. destruct HI as [(HL & HS & HV)|(HL & VT)].
  - unfold spatial_query. rewrite HS. destruct perm as [|o [|]]; simpl in *; [| |lia].
    + exists [], [], st, false. repeat split; try done; try constructor.
    + rewrite (HV 0). simpl. destruct (pl o) eqn:Ep.
      * destruct (cb st o) as [st' e] eqn:E. exists [o], [], st', e. repeat split; try done.
        destruct e; [by constructor|]. econstructor; [done|constructor].
      * exists [], [], st, false. repeat split; try done; try constructor.
  - unfold spatial_query. pose proof (vt_size _ _ _ _ VT) as HS.
    destruct (t_size T) as [|[|n]] eqn:Et; [lia..|].
    destruct (spatial_walk le vol perm T VT pl pv cb PS _ _ _ _ (vt_root _ _ _ _ VT) st) as (k & B & H).
    rewrite (slice_all perm) in H by lia.
    assert (exists f, 2 * S (S n) = k + f) as [f ->] by (exists (2 * S (S n) - k); lia).
    destruct H as [(calls & rest & st' & E & HV & HE)|(st' & HV & HE)].
    + exists calls, rest, st', true. split; [apply HE|]. done.
    + exists (List.filter pl perm), [], st', false. split; [rewrite HE; by destruct f|].
      split; [by rewrite app_nil_r|]. done.
Qed.

Lemma half_thread_correct pl pv : Index le vol perm T -> (forall a, PruneSafe le vol (pl a) (pv a)) ->
  forall p a, 2 <= length perm -> perm !! p = Some a ->
  half_thread T pl pv p = Ok (map (pair a) (List.filter (pl a) (drop (S p) perm))).
Proof.
  intros [?|(HL & VT)] PS p a Hn Hp; [lia|].
  pose proof (vt_size _ _ _ _ VT) as HS.
  apply lookup_lt_Some in Hp as Hlt.
  destruct (half_from le vol perm T VT pl pv PS a p _ _ _ _ (vt_root _ _ _ _ VT)) as (k & rp0 & Hrp & B & E); [lia|].
  unfold half_thread. rewrite (vt_values _ _ _ _ VT), Hp, Hrp.
  assert (exists f, 2 * t_size T = k + f) as [f ->] by (exists (2 * t_size T - k); lia).
  rewrite E. assert (half_loop T pl pv f a None = Ok []) as -> by (by destruct f). simpl. rewrite app_nil_r.
  unfold pairs_with, slice. f_equal. f_equal. f_equal. apply take_ge. rewrite drop_length. lia.
Qed.
End Top.
