(** C81, C82: the verifier of DBSCAN clusterings. *)
From Verif Require Import VerifyModel VerifySpec VerifyProof VerifyUniqueProof.
Local Open Scope nat_scope.

Section Serial.
Variables (n minpts : nat) (near : nat -> nat -> bool) (labels : list Z) (order offset indices : list nat).
Hypothesis Hrefl : forall i, i < n -> near i i = true.
Hypothesis Hsym : forall i j, i < n -> j < n -> near i j = near j i.
Hypothesis Hlab : length labels = n.
Hypothesis Hord : order ≡ₚ seq 0 n.
Hypothesis HN : NeighbourLists n near offset indices.

Definition r (i : nat) : list nat := match offset !! i, offset !! S i with Some a, Some b => take (b - a) (drop a indices) | _, _ => [] end.
Lemma r_ok i : i < n -> exists o, offset !! i = Some o /\ offset !! S i = Some (o + length (r i)) /\ r i ≡ₚ List.filter (near i) (seq 0 n) /\ forall k j, r i !! k = Some j -> indices !! (o + k) = Some j.
Proof.
  intros Hi. destruct HN as (_ & _ & _ & H). destruct (H i Hi) as (o & ri & E1 & E2 & E3 & E4). assert (r i = ri) as ->.
  { unfold r. rewrite E1, E2. replace (o + length ri - o) with (length ri) by lia. apply list_eq_same_length with (n := length ri); [done| |].
    - rewrite take_length, drop_length. destruct ri as [|a ri]; [simpl; lia|]. destruct (lookup_lt_is_Some_2 (a :: ri) (length ri)) as [x Hx]; [simpl; lia|]. apply E4, lookup_lt_Some in Hx. cbn [length] in *. lia.
    - intros k x y Hk Hx Hy. rewrite lookup_take, lookup_drop in Hx by done. rewrite (E4 k y Hy) in Hx. congruence. }
  by exists o.
Qed.
Lemma r_elem i j : i < n -> j ∈ r i <-> j < n /\ near i j = true.
Proof.
  intros Hi. destruct (r_ok i Hi) as (o & _ & _ & HP & _). rewrite HP. rewrite elem_of_list_In, filter_In, in_seq. split; intros [? ?]; split; try done; lia.
Qed.
Lemma indices_lt : forall a, a <= n -> forall o p, offset !! a = Some o -> p < o -> exists j, indices !! p = Some j /\ j < n.
Proof.
  induction a as [|a IH]; intros Ha o p Ho Hp.
  - destruct HN as (_ & H0 & _). rewrite H0 in Ho. injection Ho as <-. lia.
  - destruct (r_ok a ltac:(lia)) as (oa & E1 & E2 & HP & E4). rewrite E2 in Ho. injection Ho as <-. destruct (decide (p < oa)) as [Hlt|Hge]; [exact (IH ltac:(lia) oa p E1 Hlt)|].
    destruct (lookup_lt_is_Some_2 (r a) (p - oa)) as [j Hj]; [lia|]. exists j. pose proof (E4 _ _ Hj) as Hp'. replace (oa + (p - oa)) with p in Hp' by lia. split; [done|]. apply (r_elem a j ltac:(lia)). by apply elem_of_list_lookup_2 in Hj.
Qed.
Notation lab := (VerifyUniqueProof.lab labels).
Notation core := (VerifyUniqueProof.core minpts r).
Notation t' t := (fun i => map snd (t i : list (nat * nat))).

Lemma lab_lookup i : i < n -> labels !! i = Some (lab (0, i)).
Proof. intros Hi. unfold VerifyUniqueProof.lab. simpl. destruct (lookup_lt_is_Some_2 labels i) as [l Hl]; [lia|]. rewrite Hl. f_equal. symmetry. by apply nth_lookup_Some. Qed.
Lemma lab_eq i j : i < n -> j < n -> labels !! i = labels !! j <-> lab (0, i) = lab (0, j).
Proof. intros Hi Hj. rewrite (lab_lookup i Hi), (lab_lookup j Hj). split; [by intros [= ?]|by intros ->]. Qed.
Lemma core_ok i : i < n -> core (0, i) = true <-> Core n minpts near i.
Proof.
  intros Hi. unfold VerifyUniqueProof.core, Core. simpl. destruct (r_ok i Hi) as (o & _ & _ & HP & _). rewrite HP. rewrite Nat.leb_le. by split; [|intros [_ ?]].
Qed.
Lemma core_no i : i < n -> core (0, i) = false <-> ~ Core n minpts near i.
Proof. intros Hi. rewrite <- (core_ok i Hi). by destruct (core (0, i)). Qed.

Lemma prepared : exists nb nb' t, mapM (fun j => l ← labels !! j; Some (Entry j 0 l false)) indices = Some nb /\ set_neighbors offset minpts order nb = Some nb' /\ length nb' = length indices /\
  Sorted offset n 0 lab core nb' t /\ forall i, i < n -> (0, i) :: t i ≡ₚ map (pair 0) (r i).
Proof.
  pose proof HN as (HL & H0 & Hn & _). assert (mapM (fun j => l ← labels !! j; Some (Entry j 0 l false)) indices = Some (map (E0 labels) indices)) as Em.
  { apply mapM_total. intros j Hj. apply elem_of_list_lookup in Hj as [p Hp]. destruct (indices_lt n ltac:(lia) _ p Hn ltac:(by apply lookup_lt_Some in Hp)) as (j' & Hp' & Hj). rewrite Hp in Hp'. injection Hp' as <-.
    by rewrite (lab_lookup j Hj). }
  exists (map (E0 labels) indices). assert (Rows offset n (map (E0 labels) indices) (map (fun i => map (E0 labels) (r i)) (seq 0 n))) as HR.
  { split; [done|]. split; [by rewrite map_length, seq_length|]. intros i ri Hi. rewrite list_lookup_fmap in Hi. apply fmap_Some in Hi as (i' & Hi & ->). apply lookup_seq in Hi as [-> Hi]. simpl.
    destruct (r_ok i Hi) as (o & E1 & E2 & _ & E4). exists o. rewrite map_length. split; [done|]. split; [done|]. intros k e Hk. rewrite list_lookup_fmap in Hk |- *. apply fmap_Some in Hk as (j & Hj & ->). by rewrite (E4 k j Hj). }
  destruct (set_neighbors_ok offset n minpts labels r ltac:(intros j Hj; destruct (r_ok j Hj) as (o & X1 & X2 & _); by exists o) ltac:(intros i j Hi Hj; by apply (r_elem i j Hi))
    ltac:(intros i Hi; apply (r_elem i i Hi); split; [done|by apply Hrefl]) order _ _ HR) as (nb' & rs' & E1 & L1 & R1 & T1 & U1).
  { rewrite Hord. apply NoDup_seq. }
  { intros i Hi. rewrite Hord in Hi. apply elem_of_seq in Hi. split; [lia|]. rewrite list_lookup_fmap, lookup_seq_lt by lia. done. }
  destruct (sorted_intro offset n 0 lab core nb' rs' (fun i t => (0, i) :: t ≡ₚ map (pair 0) (r i)) R1) as (t & HS & HP).
  { intros i Hi. apply T1. rewrite Hord. apply elem_of_seq. lia. }
  exists nb', t. split; [done|]. split; [done|]. rewrite map_length in L1. done.
Qed.

Lemma tail_elem t i q : i < n -> (0, i) :: t i ≡ₚ map (pair 0) (r i) -> q ∈ t i <-> exists j, q = (0, j) /\ j <> i /\ j < n /\ near i j = true.
Proof.
  intros Hi HP. assert (NoDup ((0, i) :: t i)) as HD.
  { rewrite HP. apply (NoDup_fmap_2 (pair 0)). destruct (r_ok i Hi) as (o & _ & _ & Hr & _). rewrite Hr. apply NoDup_ListNoDup, List.NoDup_filter, NoDup_ListNoDup, NoDup_seq. }
  apply NoDup_cons in HD as [HD _]. assert (q ∈ (0, i) :: t i <-> exists j, q = (0, j) /\ j < n /\ near i j = true) as Hq.
  { rewrite HP, elem_of_list_In, in_map_iff. split.
    - intros (j & <- & Hj). apply elem_of_list_In, (r_elem i j Hi) in Hj. by exists j.
    - intros (j & -> & Hj). exists j. split; [done|]. by apply elem_of_list_In, (r_elem i j Hi). }
  split.
  - intros Hin. destruct Hq as [Hq _]. destruct Hq as (j & -> & Hj1 & Hj2); [by right|]. exists j. split; [done|]. split; [|done]. intros ->. done.
  - intros (j & -> & Hne & Hj). destruct Hq as [_ Hq]. specialize (Hq (ex_intro _ j (conj eq_refl Hj))). apply elem_of_cons in Hq as [[= ->]|Hq]; done.
Qed.

Section Rest.
Variables (nb' : list entry) (t : nat -> list (nat * nat)).
Hypothesis HS : Sorted offset n 0 lab core nb' t.
Hypothesis HP : forall i, i < n -> (0, i) :: t i ≡ₚ map (pair 0) (r i).
Hypothesis HLn : length nb' = length indices.

Lemma nb_core i : i < n -> (exists q, q ∈ t i /\ core q = true) <-> exists j, j <> i /\ Core n minpts near j /\ near i j = true.
Proof.
  intros Hi. split.
  - intros (q & Hq & Hc). apply (tail_elem t i q Hi (HP i Hi)) in Hq as (j & -> & Hne & Hj & Hnear). exists j. split; [done|]. split; [by apply core_ok|done].
  - intros (j & Hne & Hc & Hnear). exists (0, j). split; [apply (tail_elem t i _ Hi (HP i Hi)); exists j; split; [done|]; split; [done|]; split; [apply Hc|done]|]. by apply core_ok; [apply Hc|].
Qed.
Lemma nb_core' i : i < n -> ~ Core n minpts near i -> (exists q, q ∈ t i /\ core q = true) <-> exists j, Core n minpts near j /\ near i j = true.
Proof. intros Hi Hc. rewrite (nb_core i Hi). split; [intros (j & _ & Hj); by exists j|]. intros (j & Hj & Hn). exists j. split; [|done]. by intros ->. Qed.

Lemma unique_ok : (forall i, i < n -> core (0, i) = true -> (0 <= lab (0%nat, i))%Z) -> (forall i q, i < n -> core (0, i) = true -> q ∈ t i -> core q = true -> lab (0, i) = lab q) ->
  (forall i, i < n -> core (0, i) = false -> (exists q, q ∈ t i /\ core q = true) \/ lab (0, i) = (-1)%Z) ->
  exists b, clusters_unique offset nb' = Some b /\ (b = true <-> forall i j, Core n minpts near i -> Core n minpts near j -> labels !! i = labels !! j -> Conn (CoreEdge n minpts near) i j).
Proof.
  intros A1 A2 A3. set (lb := fun j => lab (0, j)). set (cr := fun j => core (0, j)).
  assert (forall i j, i < n -> j ∈ t' t i <-> j <> i /\ j < n /\ near i j = true) as Ht.
  { intros i j Hi. rewrite elem_of_list_In, in_map_iff. split.
    - intros (q & <- & Hq). apply elem_of_list_In, (tail_elem t i q Hi (HP i Hi)) in Hq as (j & -> & Hj). done.
    - intros Hj. exists (0, j). split; [done|]. apply elem_of_list_In, (tail_elem t i _ Hi (HP i Hi)). by exists j. }
  assert (St offset n lb cr (t' t) nb' lb) as HSt.
  { destruct HS as (rs & HR & Hrs). exists rs. split; [done|]. intros i Hi. rewrite (Hrs i Hi). unfold E at 1. simpl. do 2 f_equal. rewrite map_map. apply map_ext_in. intros q Hq. apply elem_of_list_In, (tail_elem t i q Hi (HP i Hi)) in Hq as (j & -> & _). done. }
  assert (forall a b, Link n cr (t' t) a b <-> a <> b /\ CoreEdge n minpts near a b) as Hlink.
  { intros a b. unfold Link, Edge, CoreEdge, cr. split.
    - intros (Ha & Hca & Hcb & Hb). apply (Ht a b Ha) in Hb as (Hne & Hb & Hnear). split; [done|]. split; [by apply core_ok|]. split; [by apply core_ok|done].
    - intros (Hne & Hca & Hcb & Hnear). pose proof (proj1 Hca). pose proof (proj1 Hcb). split; [done|]. split; [by apply core_ok|]. split; [by apply core_ok|]. apply Ht; done. }
  destruct (clusters_unique_ok offset n lb cr (t' t)) with (nb := nb') (m := length indices) as (b & Hb & Hbt).
  - intros i j Hi Hj. by apply (Ht i j Hi) in Hj as (_ & ? & _).
  - intros a b Ha (Hca & Hcb & Hb). apply (Ht a b Ha) in Hb as (Hne & Hb & Hnear). split; [done|]. split; [done|]. apply Ht; [done|]. split; [done|]. split; [done|]. by rewrite Hsym.
  - done.
  - apply HN.
  - lia.
  - intros i Hi Hc. by apply A1.
  - intros a b Ha (Hca & Hcb & Hb). apply (Ht a b Ha) in Hb as (Hne & Hb & Hnear). apply (A2 a (0, b)); try done. apply (tail_elem t a _ Ha (HP a Ha)). by exists b.
  - intros i Hi Hc. destruct (A3 i Hi Hc) as [(q & Hq & Hcq)|Hl]; [|by right]. left. exists q.2. apply (tail_elem t i q Hi (HP i Hi)) in Hq as (j & -> & Hne & Hj & Hnear). split; [by apply Ht|done].
  - exists b. split; [done|]. rewrite Hbt. split.
    + intros H i j Hci Hcj Hl. pose proof (proj1 Hci) as Hi. pose proof (proj1 Hcj) as Hj. specialize (H i j Hi Hj ltac:(by apply core_ok) ltac:(by apply core_ok) ltac:(by apply lab_eq)).
      clear -H Hlink. induction H as [x y Hxy|x|x y _ IH|x y z _ IH1 _ IH2]; [apply rst_step; by apply Hlink in Hxy as [_ ?]|apply rst_refl|by apply rst_sym|by apply rst_trans with y].
    + intros H i j Hi Hj Hci Hcj Hl. specialize (H i j ltac:(by apply core_ok) ltac:(by apply core_ok) ltac:(by apply lab_eq)).
      clear -H Hlink. induction H as [x y Hxy|x|x y _ IH|x y z _ IH1 _ IH2]; [|apply rst_refl|by apply rst_sym|by apply rst_trans with y].
      destruct (decide (x = y)) as [->|Hne]; [apply rst_refl|]. apply rst_step. by apply Hlink.
Qed.
Lemma share_conn : (forall i q, i < n -> core (0, i) = true -> q ∈ t i -> core q = true -> lab (0, i) = lab q) <-> forall i j, Core n minpts near i -> Core n minpts near j -> Conn (CoreEdge n minpts near) i j -> labels !! i = labels !! j.
Proof.
  split.
  - intros H i j _ _ HC. induction HC as [x y (Hx & Hy & Hnear)|x|x y _ IH|x y z _ IH1 _ IH2]; [|done|done|congruence]. pose proof (proj1 Hx) as Hxn. pose proof (proj1 Hy) as Hyn. destruct (decide (x = y)) as [->|Hne]; [done|].
    apply lab_eq; [done..|]. apply H; [done|by apply core_ok| |by apply core_ok]. apply (tail_elem t x _ Hxn (HP x Hxn)). by exists y.
  - intros H i q Hi Hc Hq Hcq. apply (tail_elem t i q Hi (HP i Hi)) in Hq as (j & -> & Hne & Hj & Hnear). apply lab_eq; [done..|]. apply core_ok in Hc, Hcq; [|done..]. apply H; [done..|]. by apply rst_step.
Qed.
End Rest.

Lemma verify_ok (star : bool) : exists b, verify_dbscan star minpts labels order offset indices = Some b /\ (b = true <-> if star then ClusteringStar n minpts near labels else Clustering n minpts near labels).
Proof.
  destruct prepared as (nb & nb' & t & E1 & E2 & L & HS & HP). unfold verify_dbscan. rewrite E1. cbn [mbind option_bind]. rewrite E2. cbn [mbind option_bind all_of].
  destruct (core_nonnegative_ok offset n 0 lab core nb' t HS) as (b1 & B1 & C1). destruct (connected_share_ok offset n 0 lab core nb' t HS) as (b2 & B2 & C2). destruct (noise_points_ok offset n 0 lab core nb' t HS) as (b3 & B3 & C3).
  assert (exists b4, (if star then ignored_border offset else border_points offset) nb' = Some b4 /\ (b4 = true <-> if star then forall i, i < n -> core (0, i) = false -> (exists q, q ∈ t i /\ core q = true) -> lab (0, i) = (-1)%Z
    else forall i, i < n -> core (0, i) = false -> (exists q, q ∈ t i /\ core q = true) -> exists q, q ∈ t i /\ core q = true /\ lab (0, i) = lab q)) as (b4 & B4 & C4).
  { destruct star; [exact (ignored_border_ok offset n 0 lab core nb' t HS)|exact (border_points_ok offset n 0 lab core nb' t HS)]. }
  rewrite B1, B2, B3, B4. cbn [mbind option_bind].
  assert (Hnn : (forall i l, Core n minpts near i -> labels !! i = Some l -> (0 <= l)%Z) -> b1 = true).
  { intros H. apply C1. intros i Hi Hc. apply (H i); [by apply core_ok|by apply lab_lookup]. }
  assert (Hcc : (forall i j, Core n minpts near i -> Core n minpts near j -> (labels !! i = labels !! j <-> Conn (CoreEdge n minpts near) i j)) -> b2 = true).
  { intros H. apply C2, (share_conn t HP). intros i j Hi Hj HC. by apply H. }
  assert (Hno : (forall i, i < n -> ~ Core n minpts near i -> (forall j, Core n minpts near j -> near i j = false) -> labels !! i = Some (-1)%Z) -> b3 = true).
  { intros H. apply C3. intros i Hi Hc. apply (core_no i Hi) in Hc. destruct (existsb (fun q => core q) (t i)) eqn:Ex.
    - left. apply existsb_exists in Ex as (q & Hq & Hcq). exists q. split; [by apply elem_of_list_In|done].
    - right. assert (labels !! i = Some (-1)%Z) as Hl; [|rewrite (lab_lookup i Hi) in Hl; by injection Hl]. apply H; [done|done|]. intros j Hj. destruct (near i j) eqn:Hnear; [|done]. exfalso.
      destruct (proj2 (nb_core' t HP i Hi Hc) (ex_intro _ j (conj Hj Hnear))) as (q & Hq & Hcq). rewrite <- not_true_iff_false in Ex. apply Ex. apply existsb_exists. exists q. split; [by apply elem_of_list_In|done]. }
  assert (Hbd : (if star then ClusteringStar n minpts near labels else Clustering n minpts near labels) -> b4 = true).
  { intros H. apply C4. destruct star.
    - intros i Hi Hc Hq. apply (core_no i Hi) in Hc. pose proof (cs_noise _ _ _ _ H i Hi Hc) as E. rewrite (lab_lookup i Hi) in E. by injection E.
    - intros i Hi Hc Hq. apply (core_no i Hi) in Hc. apply (nb_core' t HP i Hi Hc) in Hq. destruct (cl_border _ _ _ _ H i Hi Hc Hq) as (j & Hj & Hnear & Hl). pose proof (proj1 Hj) as Hjn. exists (0, j).
      split; [apply (tail_elem t i _ Hi (HP i Hi)); exists j; split; [done|]; split; [by intros ->|done]|]. split; [by apply core_ok|by apply lab_eq]. }
  destruct b1 eqn:T1; [|exists false; split; [done|]; split; [done|]; intros H; exfalso; assert (false = true) by (destruct star; apply Hnn, H); done].
  destruct b2 eqn:T2; [|exists false; split; [done|]; split; [done|]; intros H; exfalso; assert (false = true) by (destruct star; apply Hcc, H); done].
  destruct b3 eqn:T3; [|exists false; split; [done|]; split; [done|]; intros H; exfalso; assert (false = true) by (destruct star; apply Hno; [intros i Hi Hc _; by apply (cs_noise _ _ _ _ H)|apply H]); done].
  destruct b4 eqn:T4; [|exists false; split; [done|]; split; [done|]; intros H; exfalso; by apply Hbd in H].
  pose proof (proj1 C1 eq_refl) as A1. pose proof (proj1 C2 eq_refl) as A2. pose proof (proj1 C3 eq_refl) as A3. pose proof (proj1 C4 eq_refl) as A4.
  destruct (unique_ok nb' t HS HP L A1 A2 A3) as (b5 & B5 & C5). rewrite B5. cbn [mbind option_bind]. exists b5. split; [by destruct b5|]. rewrite C5. pose proof (proj1 (share_conn t HP) A2) as A2'.
  assert (Hp : forall i l, Core n minpts near i -> labels !! i = Some l -> (0 <= l)%Z).
  { intros i l Hi Hl. pose proof (proj1 Hi) as Hin. rewrite (lab_lookup i Hin) in Hl. injection Hl as <-. apply A1; [done|by apply core_ok]. }
  destruct star; split.
  - intros H. constructor; [done|done| |].
    + intros i j Hi Hj. split; [by apply H|by apply A2'].
    + intros i Hi Hc. rewrite (lab_lookup i Hi). f_equal. apply (core_no i Hi) in Hc. destruct (A3 i Hi Hc) as [Hq|Hl]; [by apply A4|done].
  - intros H i j Hi Hj. by apply (cs_core _ _ _ _ H).
  - intros H. constructor; [done|done| | |].
    + intros i j Hi Hj. split; [by apply H|by apply A2'].
    + intros i Hi Hc Hex. apply (nb_core' t HP i Hi Hc) in Hex. apply (core_no i Hi) in Hc as Hc'. destruct (A4 i Hi Hc' Hex) as (q & Hq & Hcq & Hl). apply (tail_elem t i q Hi (HP i Hi)) in Hq as (j & -> & Hne & Hj & Hnear).
      exists j. split; [by apply core_ok|]. split; [done|by apply lab_eq].
    + intros i Hi Hc Hex. rewrite (lab_lookup i Hi). f_equal. apply (core_no i Hi) in Hc as Hc'. destruct (A3 i Hi Hc') as [Hq|Hl]; [|done]. apply (nb_core' t HP i Hi Hc) in Hq as (j & Hj & Hnear). by rewrite (Hex j Hj) in Hnear.
  - intros H i j Hi Hj. by apply (cl_core _ _ _ _ H).
Qed.
End Serial.

(** ** C81: the verifier is right *)
(** Whatever order the neighbours of a point come in and the threads run in, the verifier returns, without accessing anything out of bounds and
    with all assertions holding, and accepts exactly the DBSCAN (DBSCAN star) clusterings. *)
Theorem C81_dbscan : forall n minpts near labels order offset indices,
  (forall i, i < n -> near i i = true) -> (forall i j, i < n -> j < n -> near i j = near j i) -> length labels = n -> order ≡ₚ seq 0 n -> NeighbourLists n near offset indices ->
  exists b, verify_dbscan false minpts labels order offset indices = Some b /\ (b = true <-> Clustering n minpts near labels).
Proof. intros n minpts near labels order offset indices H1 H2 H3 H4 H5. exact (verify_ok n minpts near labels order offset indices H1 H2 H3 H4 H5 false). Qed.
Print Assumptions C81_dbscan.
Theorem C81_star : forall n minpts near labels order offset indices,
  (forall i, i < n -> near i i = true) -> (forall i j, i < n -> j < n -> near i j = near j i) -> length labels = n -> order ≡ₚ seq 0 n -> NeighbourLists n near offset indices ->
  exists b, verify_dbscan true minpts labels order offset indices = Some b /\ (b = true <-> ClusteringStar n minpts near labels).
Proof. intros n minpts near labels order offset indices H1 H2 H3 H4 H5. exact (verify_ok n minpts near labels order offset indices H1 H2 H3 H4 H5 true). Qed.
Print Assumptions C81_star.

(** The clusterings of C22 and C23 are accepted, whatever the names of the clusters. *)
Lemma valid_clustering n minpts near labels : ValidDBSCAN n minpts near labels -> Clustering n minpts near labels.
Proof.
  intros [H1 [H2 H2'] H3 H4]. constructor; try done. intros i l Hi Hl. destruct (H2 i Hi) as (m & _ & Hm). rewrite Hl in Hm. injection Hm as ->. lia.
Qed.
Lemma valid_clustering_star n minpts near labels : ValidDBSCANStar n minpts near labels -> ClusteringStar n minpts near labels.
Proof.
  intros [H1 [H2 H2'] H3]. constructor; try done. intros i l Hi Hl. destruct (H2 i Hi) as (m & _ & Hm). rewrite Hl in Hm. injection Hm as ->. lia.
Qed.
Theorem C81_accepts : forall n minpts near labels order offset indices,
  (forall i, i < n -> near i i = true) -> (forall i j, i < n -> j < n -> near i j = near j i) -> order ≡ₚ seq 0 n -> NeighbourLists n near offset indices ->
  (ValidDBSCAN n minpts near labels -> verify_dbscan false minpts labels order offset indices = Some true) /\
  (ValidDBSCANStar n minpts near labels -> verify_dbscan true minpts labels order offset indices = Some true).
Proof.
  intros n minpts near labels order offset indices H1 H2 H4 H5. split; intros HV.
  - destruct (C81_dbscan n minpts near labels order offset indices H1 H2 ltac:(apply HV) H4 H5) as (b & -> & Hb). f_equal. apply Hb. by apply valid_clustering.
  - destruct (C81_star n minpts near labels order offset indices H1 H2 ltac:(apply HV) H4 H5) as (b & -> & Hb). f_equal. apply Hb. by apply valid_clustering_star.
Qed.
Print Assumptions C81_accepts.

(** ** C82: the distributed verifier *)
Section Mpi.
Variables (ns : list nat) (minpts : nat) (near : nat * nat -> nat * nat -> bool) (labels : list (list Z)) (orders first second : list (list nat)) (firstids nbs : list (list (nat * nat))).
Notation all := (AllPoints ns).
Hypothesis Hrefl : forall q, q ∈ all -> near q q = true.
Hypothesis Hlab : Forall2 (fun m ls => length ls = m) ns labels.
Hypothesis Hord : Forall2 (fun m order => order ≡ₚ seq 0 m) ns orders.
Hypothesis Hfirst : forall rank m, ns !! rank = Some m -> exists offset ids, first !! rank = Some offset /\ firstids !! rank = Some ids /\ NeighbourListsMpi ns near rank m offset ids.
Hypothesis Hsecond : forall rank m, ns !! rank = Some m -> exists offset ids, second !! rank = Some offset /\ nbs !! rank = Some ids /\ NeighbourListsMpi ns near rank m offset ids.
Hypothesis Hfl : length first = length ns.

Lemma all_elem q : q ∈ all <-> exists m, ns !! q.1 = Some m /\ q.2 < m.
Proof.
  unfold AllPoints. rewrite elem_of_list_In, in_concat. split.
  - intros (l & Hl & Hq). apply elem_of_list_In in Hl, Hq. apply elem_of_lookup_imap in Hl as (r & m & -> & Hr). apply elem_of_list_fmap in Hq as (i & -> & Hi). apply elem_of_seq in Hi. exists m. split; [done|]. simpl. lia.
  - intros (m & Hm & Hi). exists (map (pair q.1) (seq 0 m)). split; apply elem_of_list_In; [apply elem_of_lookup_imap; by exists q.1, m|]. apply elem_of_list_fmap. exists q.2. split; [by destruct q|apply elem_of_seq; lia].
Qed.
Lemma imap_concat_nodup (l : list nat) : forall d, NoDup (concat (imap (fun r m => map (pair (d + r)) (seq 0 m)) l)) /\ forall q, q ∈ concat (imap (fun r m => map (pair (d + r)) (seq 0 m)) l) -> d <= q.1.
Proof.
  induction l as [|m l IH]; intros d; [split; [constructor|]; intros q Hq; by apply elem_of_nil in Hq|].
  cbn [imap concat]. assert (imap ((fun r m => map (pair (d + r)) (seq 0 m)) ∘ S) l = imap (fun r m => map (pair (S d + r)) (seq 0 m)) l) as ->.
  { apply imap_ext. intros i x _. cbn. apply map_ext. intros y. f_equal. lia. }
  destruct (IH (S d)) as [N1 N2]. split.
  - apply NoDup_app. split; [apply (NoDup_fmap_2 (pair (d + 0))), NoDup_seq|]. split; [|done]. intros q Hq Hq'. apply N2 in Hq'. apply elem_of_list_fmap in Hq as (i & -> & _). simpl in Hq'. lia.
  - intros q Hq. apply elem_of_app in Hq as [Hq|Hq]; [apply elem_of_list_fmap in Hq as (i & -> & _); simpl; lia|]. apply N2 in Hq. lia.
Qed.
Lemma all_nodup : NoDup all.
Proof. exact (proj1 (imap_concat_nodup ns 0)). Qed.

Definition mlab (q : nat * nat) : Z := nth q.2 (nth q.1 labels []) 0%Z.
Definition mcore (q : nat * nat) : bool := minpts <=? length (List.filter (near q) all).
Lemma mlab_lookup q : q ∈ all -> label_of labels q = Some (mlab q).
Proof.
  intros Hq. apply all_elem in Hq as (m & Hm & Hi). destruct (Forall2_lookup_l _ _ _ _ _ Hlab Hm) as (ls & Hls & HL). unfold label_of, mlab. rewrite Hls. rewrite (nth_lookup_Some labels q.1 [] ls Hls). simpl.
  destruct (lookup_lt_is_Some_2 ls q.2) as [x Hx]; [lia|]. rewrite Hx. f_equal. symmetry. by apply nth_lookup_Some.
Qed.
Lemma mlab_eq p q : p ∈ all -> q ∈ all -> label_of labels p = label_of labels q <-> mlab p = mlab q.
Proof. intros Hp Hq. rewrite (mlab_lookup p Hp), (mlab_lookup q Hq). split; [by intros [= ?]|by intros ->]. Qed.
Lemma mcore_ok q : q ∈ all -> mcore q = true <-> CorePoint ns minpts near q.
Proof. intros Hq. unfold mcore, CorePoint. rewrite Nat.leb_le. by split; [|intros [_ ?]]. Qed.
Lemma mcore_no q : q ∈ all -> mcore q = false <-> ~ CorePoint ns minpts near q.
Proof. intros Hq. rewrite <- (mcore_ok q Hq). by destruct (mcore q). Qed.

Definition cores : list (list bool) := imap (fun rank m => map (fun i => mcore (rank, i)) (seq 0 m)) ns.
Lemma cores_ok : mapM (core_flags minpts) first = Some cores.
Proof.
  apply mapM_Some. apply Forall2_same_length_lookup. unfold cores. rewrite imap_length. split; [done|]. intros rank offset cs Ho Hc. rewrite list_lookup_imap in Hc. apply fmap_Some in Hc as (m & Hm & ->).
  destruct (Hfirst rank m Hm) as (offset' & ids & Ho' & _ & HL & _ & _ & H). rewrite Ho in Ho'. injection Ho' as <-. unfold core_flags. rewrite HL. replace (S m - 1) with m by lia. apply mapM_total. intros i Hi. apply elem_of_seq in Hi.
  destruct (H i ltac:(lia)) as (o & r & E1 & E2 & HP & _). rewrite E1, E2. cbn [mbind option_bind]. unfold mcore. rewrite <- HP. do 2 f_equal. lia.
Qed.
Lemma entry_ok q : q ∈ all -> neighbour_entry labels cores q = Some (E mlab mcore q).
Proof.
  intros Hq. pose proof (mlab_lookup q Hq) as Hl. unfold label_of in Hl. unfold neighbour_entry. destruct (labels !! q.1) as [ls|]; [|done]. simpl in *. rewrite Hl. simpl. apply all_elem in Hq as (m & Hm & Hi).
  unfold cores. rewrite list_lookup_imap, Hm. simpl. rewrite list_lookup_fmap, lookup_seq_lt by done. simpl. by destruct q.
Qed.

Section Rank.
Variables (rank m : nat).
Hypothesis Hm : ns !! rank = Some m.
Lemma here i : i < m -> (rank, i) ∈ all.
Proof. intros Hi. apply all_elem. by exists m. Qed.
Lemma rank_ok : exists order offset ids out b, orders !! rank = Some order /\ second !! rank = Some offset /\ nbs !! rank = Some ids /\ mapM (neighbour_entry labels cores) ids = Some out /\ verify_rank rank order offset out = Some b /\
  (b = true <-> (forall i, i < m -> mcore (rank, i) = true -> (0 <= mlab (rank, i))%Z) /\
    (forall i q, i < m -> mcore (rank, i) = true -> q ∈ all -> near (rank, i) q = true -> mcore q = true -> mlab (rank, i) = mlab q) /\
    (forall i, i < m -> mcore (rank, i) = false -> (exists q, q ∈ all /\ near (rank, i) q = true /\ mcore q = true) \/ mlab (rank, i) = (-1)%Z) /\
    (forall i, i < m -> mcore (rank, i) = false -> (exists q, q ∈ all /\ near (rank, i) q = true /\ mcore q = true) -> exists q, q ∈ all /\ near (rank, i) q = true /\ mcore q = true /\ mlab (rank, i) = mlab q)).
Proof.
  destruct (Forall2_lookup_l _ _ _ _ _ Hord Hm) as (order & Ho & HPo). destruct (Hsecond rank m Hm) as (offset & ids & Hs & Hn & HL & H0 & Hlast & H). exists order, offset, ids.
  set (ks := fun i => match offset !! i, offset !! S i with Some a, Some b => take (b - a) (drop a ids) | _, _ => [] end).
  assert (forall i, i < m -> exists o, offset !! i = Some o /\ offset !! S i = Some (o + length (ks i)) /\ ks i ≡ₚ List.filter (near (rank, i)) all /\ forall k q, ks i !! k = Some q -> ids !! (o + k) = Some q) as Hks.
  { intros i Hi. destruct (H i Hi) as (o & ri & E1 & E2 & E3 & E4). assert (ks i = ri) as ->; [|by exists o].
    unfold ks. rewrite E1, E2. replace (o + length ri - o) with (length ri) by lia. apply list_eq_same_length with (n := length ri); [done| |].
    - rewrite take_length, drop_length. destruct ri as [|a ri]; [simpl; lia|]. destruct (lookup_lt_is_Some_2 (a :: ri) (length ri)) as [x Hx]; [simpl; lia|]. apply E4, lookup_lt_Some in Hx. cbn [length] in *. lia.
    - intros k x y Hk Hx Hy. rewrite lookup_take, lookup_drop in Hx by done. rewrite (E4 k y Hy) in Hx. congruence. }
  assert (forall i q, i < m -> q ∈ ks i <-> q ∈ all /\ near (rank, i) q = true) as Hel.
  { intros i q Hi. destruct (Hks i Hi) as (o & _ & _ & HP & _). rewrite HP, elem_of_list_In, filter_In. by rewrite elem_of_list_In. }
  assert (forall a, a <= m -> forall o p, offset !! a = Some o -> p < o -> exists q, ids !! p = Some q /\ q ∈ all) as Hids.
  { induction a as [|a IH]; intros Ha o p Ho' Hp; [rewrite H0 in Ho'; injection Ho' as <-; lia|]. destruct (Hks a ltac:(lia)) as (oa & E1 & E2 & HP & E4). rewrite E2 in Ho'. injection Ho' as <-.
    destruct (decide (p < oa)) as [Hlt|Hge]; [exact (IH ltac:(lia) oa p E1 Hlt)|]. destruct (lookup_lt_is_Some_2 (ks a) (p - oa)) as [q Hq]; [lia|]. exists q. pose proof (E4 _ _ Hq) as Hp'. replace (oa + (p - oa)) with p in Hp' by lia. split; [done|].
    apply (Hel a q ltac:(lia)). by apply elem_of_list_lookup_2 in Hq. }
  exists (map (E mlab mcore) ids). assert (mapM (neighbour_entry labels cores) ids = Some (map (E mlab mcore) ids)) as Em.
  { apply mapM_total. intros q Hq. apply elem_of_list_lookup in Hq as [p Hp]. destruct (Hids m ltac:(lia) _ p Hlast ltac:(by apply lookup_lt_Some in Hp)) as (q' & Hp' & Hq). rewrite Hp in Hp'. injection Hp' as <-. by apply entry_ok. }
  assert (Rows offset m (map (E mlab mcore) ids) (map (fun i => map (E mlab mcore) (ks i)) (seq 0 m))) as HR.
  { split; [done|]. split; [by rewrite map_length, seq_length|]. intros i ri Hi. rewrite list_lookup_fmap in Hi. apply fmap_Some in Hi as (i' & Hi & ->). apply lookup_seq in Hi as [-> Hi]. simpl.
    destruct (Hks i Hi) as (o & E1 & E2 & _ & E4). exists o. rewrite map_length. split; [done|]. split; [done|]. intros k e Hk. rewrite list_lookup_fmap in Hk |- *. apply fmap_Some in Hk as (j & Hj & ->). by rewrite (E4 k j Hj). }
  destruct (set_neighbors_mpi_ok offset m rank mlab mcore ks ltac:(intros i Hi; apply (Hel i _ Hi); split; [by apply here|by apply Hrefl, here]) order _ _ HR) as (nb' & rs' & E1 & L1 & R1 & T1 & U1).
  { rewrite HPo. apply NoDup_seq. }
  { intros i Hi. rewrite HPo in Hi. apply elem_of_seq in Hi. split; [lia|]. rewrite list_lookup_fmap, lookup_seq_lt by lia. done. }
  destruct (sorted_intro offset m rank mlab mcore nb' rs' (fun i t => (rank, i) :: t ≡ₚ ks i) R1) as (t & HS & HP).
  { intros i Hi. apply T1. rewrite HPo. apply elem_of_seq. lia. }
  assert (forall i q, i < m -> q ∈ t i <-> q <> (rank, i) /\ q ∈ all /\ near (rank, i) q = true) as Ht.
  { intros i q Hi. pose proof (HP i Hi) as HPi. destruct (Hks i Hi) as (o & _ & _ & HPk & _).
    assert (NoDup ((rank, i) :: t i)) as HD by (rewrite HPi, HPk; apply NoDup_ListNoDup, List.NoDup_filter, NoDup_ListNoDup, all_nodup).
    apply NoDup_cons in HD as [HD _]. assert (q ∈ (rank, i) :: t i <-> q ∈ all /\ near (rank, i) q = true) as Hq by (rewrite HPi; by apply Hel). split.
    - intros Hin. split; [by intros ->|]. apply Hq. by right.
    - intros [Hne Hin]. apply Hq in Hin. apply elem_of_cons in Hin as [->|Hin]; done. }
  unfold verify_rank. rewrite E1. cbn [mbind option_bind all_of].
  destruct (core_nonnegative_ok offset m rank mlab mcore nb' t HS) as (b1 & B1 & C1). destruct (connected_share_ok offset m rank mlab mcore nb' t HS) as (b2 & B2 & C2). destruct (noise_points_ok offset m rank mlab mcore nb' t HS) as (b3 & B3 & C3). destruct (border_points_ok offset m rank mlab mcore nb' t HS) as (b4 & B4 & C4).
  rewrite B1, B2, B3, B4. cbn [mbind option_bind]. exists (b1 && b2 && b3 && b4). split; [done|]. split; [done|]. split; [done|]. split; [done|]. split; [by destruct b1, b2, b3, b4|].
  rewrite !andb_true_iff. rewrite C1, C2, C3, C4.
  assert (forall i, i < m -> mcore (rank, i) = false -> (exists q, q ∈ t i /\ mcore q = true) <-> exists q, q ∈ all /\ near (rank, i) q = true /\ mcore q = true) as Hex.
  { intros i Hi Hc. split; intros (q & Hq).
    - exists q. destruct Hq as [Hq Hcq]. by apply (Ht i q Hi) in Hq as (_ & ? & ?).
    - exists q. destruct Hq as (Hq & Hnear & Hcq). split; [|done]. apply (Ht i q Hi). split; [|done]. intros ->. congruence. }
  split.
  - intros [[[A1 A2] A3] A4]. split; [done|]. split; [|split].
    + intros i q Hi Hc Hq Hnear Hcq. destruct (decide (q = (rank, i))) as [->|Hne]; [done|]. apply (A2 i q); try done. by apply (Ht i q Hi).
    + intros i Hi Hc. destruct (A3 i Hi Hc) as [Hq|Hl]; [left; by apply (Hex i Hi Hc)|by right].
    + intros i Hi Hc Hq. apply (Hex i Hi Hc) in Hq. destruct (A4 i Hi Hc Hq) as (q & Hin & Hcq & Hl). exists q. by apply (Ht i q Hi) in Hin as (_ & ? & ?).
  - intros (A1 & A2 & A3 & A4). split; [split; [split; [done|]|]|].
    + intros i q Hi Hc Hq Hcq. apply (Ht i q Hi) in Hq as (_ & Hq & Hnear). by apply (A2 i q).
    + intros i Hi Hc. destruct (A3 i Hi Hc) as [Hq|Hl]; [left; by apply (Hex i Hi Hc)|by right].
    + intros i Hi Hc Hq. apply (Hex i Hi Hc) in Hq. destruct (A4 i Hi Hc Hq) as (q & Hin & Hnear & Hcq & Hl). exists q. split; [|done]. apply (Ht i q Hi). split; [|done]. intros ->. congruence.
Qed.
End Rank.

Lemma mpi_ok : exists b, verify_mpi minpts labels orders first second nbs = Some b /\ (b = true <-> WeakClusteringMpi ns minpts near labels).
Proof.
  unfold verify_mpi. rewrite cores_ok. cbn [mbind option_bind].
  assert (length labels = length ns) as HLl by (symmetry; by apply (Forall2_length _ _ _ Hlab)).
  set (f := fun rank => order ← orders !! rank; offset ← second !! rank; ids ← nbs !! rank; out ← mapM (neighbour_entry labels cores) ids; verify_rank rank order offset out).
  assert (forall rank m, ns !! rank = Some m -> exists b, f rank = Some b /\
    (b = true <-> (forall i, i < m -> mcore (rank, i) = true -> (0 <= mlab (rank, i))%Z) /\
    (forall i q, i < m -> mcore (rank, i) = true -> q ∈ all -> near (rank, i) q = true -> mcore q = true -> mlab (rank, i) = mlab q) /\
    (forall i, i < m -> mcore (rank, i) = false -> (exists q, q ∈ all /\ near (rank, i) q = true /\ mcore q = true) \/ mlab (rank, i) = (-1)%Z) /\
    (forall i, i < m -> mcore (rank, i) = false -> (exists q, q ∈ all /\ near (rank, i) q = true /\ mcore q = true) -> exists q, q ∈ all /\ near (rank, i) q = true /\ mcore q = true /\ mlab (rank, i) = mlab q))) as Hf.
  { intros rank m Hm. destruct (rank_ok rank m Hm) as (order & offset & ids & out & b & E1 & E2 & E3 & E4 & E5 & Hb). exists b. split; [|done]. unfold f. rewrite E1, E2, E3. cbn [mbind option_bind]. rewrite E4. done. }
  set (g := fun rank => match f rank with Some b => b | None => false end).
  assert (mapM f (seq 0 (length labels)) = Some (map g (seq 0 (length labels)))) as Em.
  { apply mapM_total. intros rank Hr. apply elem_of_seq in Hr. destruct (lookup_lt_is_Some_2 ns rank) as [m Hm]; [lia|]. destruct (Hf rank m Hm) as (b & Hb & _). unfold g. by rewrite Hb. }
  rewrite Em. cbn [mbind option_bind]. eexists. split; [done|]. rewrite forallb_forall.
  assert ((forall x, In x (map g (seq 0 (length labels))) -> x = true) <-> forall rank m, ns !! rank = Some m -> f rank = Some true) as ->.
  { split.
    - intros H rank m Hm. destruct (Hf rank m Hm) as (b & Hb & _). rewrite Hb. f_equal. apply H. apply in_map_iff. exists rank. split; [unfold g; by rewrite Hb|]. apply in_seq. apply lookup_lt_Some in Hm. lia.
    - intros H x Hx. apply in_map_iff in Hx as (rank & <- & Hr). apply in_seq in Hr. destruct (lookup_lt_is_Some_2 ns rank) as [m Hm]; [lia|]. unfold g. by rewrite (H rank m Hm). }
  split.
  - intros H. assert (forall p, p ∈ all -> exists m, ns !! p.1 = Some m /\ p.2 < m /\ f p.1 = Some true) as Hp by (intros p Hp; apply all_elem in Hp as (m & Hm & Hi); exists m; split; [done|]; split; [done|]; by apply (H _ m)).
    assert (forall p q, CoreLink ns minpts near p q -> label_of labels p = label_of labels q) as Hedge.
    { intros p q (Hcp & Hcq & Hnear). pose proof (proj1 Hcp) as Pp. pose proof (proj1 Hcq) as Pq. destruct (Hp p Pp) as (m & Hm & Hi & Hfp). destruct (Hf p.1 m Hm) as (b & Hb & Hbt). rewrite Hfp in Hb. injection Hb as <-.
      destruct (proj1 Hbt eq_refl) as (_ & A2 & _). apply mlab_eq; [done..|]. destruct p as [p1 p2]. apply (A2 p2 q); [done|by apply mcore_ok|done|done|by apply mcore_ok]. }
    constructor.
    + intros p l Hcp Hl. pose proof (proj1 Hcp) as Pp. destruct (Hp p Pp) as (m & Hm & Hi & Hfp). destruct (Hf p.1 m Hm) as (b & Hb & Hbt). rewrite Hfp in Hb. injection Hb as <-. destruct (proj1 Hbt eq_refl) as (A1 & _).
      rewrite (mlab_lookup p Pp) in Hl. injection Hl as <-. destruct p as [p1 p2]. apply (A1 p2); [done|by apply mcore_ok].
    + intros p q _ _ HC. induction HC as [x y Hxy|x|x y _ IH|x y z _ IH1 _ IH2]; [by apply Hedge|done|done|congruence].
    + intros p Pp Hcp (q & Hcq & Hnear). destruct (Hp p Pp) as (m & Hm & Hi & Hfp). destruct (Hf p.1 m Hm) as (b & Hb & Hbt). rewrite Hfp in Hb. injection Hb as <-. destruct (proj1 Hbt eq_refl) as (_ & _ & _ & A4). destruct p as [p1 p2].
      destruct (A4 p2 Hi ltac:(by apply mcore_no)) as (q' & Pq' & Hn' & Hc' & Hl); [exists q; split; [apply Hcq|]; split; [done|]; apply mcore_ok; [apply Hcq|done]|]. exists q'. split; [by apply mcore_ok|]. split; [done|]. by apply mlab_eq.
    + intros p Pp Hcp Hno. destruct (Hp p Pp) as (m & Hm & Hi & Hfp). destruct (Hf p.1 m Hm) as (b & Hb & Hbt). rewrite Hfp in Hb. injection Hb as <-. destruct (proj1 Hbt eq_refl) as (_ & _ & A3 & _). destruct p as [p1 p2].
      rewrite (mlab_lookup _ Pp). f_equal. destruct (A3 p2 Hi ltac:(by apply mcore_no)) as [(q & Pq & Hn & Hc)|Hl]; [|done]. pose proof (Hno q ltac:(by apply mcore_ok)) as Hn'. simpl in Hn. congruence.
  - intros HW rank m Hm. destruct (Hf rank m Hm) as (b & Hb & Hbt). rewrite Hb. f_equal. apply Hbt. assert (forall i, i < m -> (rank, i) ∈ all) as Hin by (intros i Hi; apply all_elem; by exists m). split; [|split; [|split]].
    + intros i Hi Hc. apply (wm_nonneg _ _ _ _ HW (rank, i)); [by apply mcore_ok; [apply Hin|]|by apply mlab_lookup, Hin].
    + intros i q Hi Hc Pq Hn Hcq. apply mlab_eq; [by apply Hin|done|]. apply mcore_ok in Hc; [|by apply Hin]. apply mcore_ok in Hcq; [|done]. apply (wm_core _ _ _ _ HW); [done|done|]. by apply rst_step.
    + intros i Hi Hc. apply mcore_no in Hc; [|by apply Hin]. destruct (existsb (fun q => near (rank, i) q && mcore q) all) eqn:Ex.
      * left. apply existsb_exists in Ex as (q & Hq & Hb'). apply andb_true_iff in Hb'. exists q. split; [by apply elem_of_list_In|done].
      * right. assert (label_of labels (rank, i) = Some (-1)%Z) as Hl; [|rewrite (mlab_lookup _ (Hin i Hi)) in Hl; by injection Hl]. apply (wm_noise _ _ _ _ HW); [by apply Hin|done|]. intros q Hcq. destruct (near (rank, i) q) eqn:Hn; [|done]. exfalso.
        rewrite <- not_true_iff_false in Ex. apply Ex. apply existsb_exists. exists q. split; [apply elem_of_list_In, Hcq|]. rewrite Hn. simpl. by apply mcore_ok; [apply Hcq|].
    + intros i Hi Hc (q & Pq & Hn & Hcq). apply mcore_no in Hc; [|by apply Hin]. destruct (wm_border _ _ _ _ HW (rank, i) (Hin i Hi) Hc) as (q' & Hcq' & Hn' & Hl); [exists q; split; [by apply mcore_ok|done]|].
      exists q'. pose proof (proj1 Hcq') as Pq'. split; [done|]. split; [done|]. split; [by apply mcore_ok|]. apply mlab_eq; [by apply Hin|done..].
Qed.
End Mpi.

(** The distributed verifier returns and accepts exactly the labellings that are clusterings except that separate clusters may share a label. *)
Theorem C82_mpi : forall ns minpts near labels orders first second (firstids nbs : list (list (nat * nat))),
  (forall q, q ∈ AllPoints ns -> near q q = true) -> Forall2 (fun m ls => length ls = m) ns labels -> Forall2 (fun m order => order ≡ₚ seq 0 m) ns orders -> length first = length ns ->
  (forall rank m, ns !! rank = Some m -> exists offset ids, first !! rank = Some offset /\ firstids !! rank = Some ids /\ NeighbourListsMpi ns near rank m offset ids) ->
  (forall rank m, ns !! rank = Some m -> exists offset ids, second !! rank = Some offset /\ nbs !! rank = Some ids /\ NeighbourListsMpi ns near rank m offset ids) ->
  exists b, verify_mpi minpts labels orders first second nbs = Some b /\ (b = true <-> WeakClusteringMpi ns minpts near labels).
Proof. intros ns minpts near labels orders first second firstids nbs H1 H2 H3 H4 H5 H6. exact (mpi_ok ns minpts near labels orders first second firstids nbs H1 H2 H3 H5 H6 H4). Qed.
Print Assumptions C82_mpi.

(** But it accepts a labelling that gives two clusters, far apart, the same label: the check that labels are unique is left out. *)
Definition mpi_near (x : nat * nat -> nat) (p q : nat * nat) : bool := (x p <=? x q + 1) && (x q <=? x p + 1).
Definition mpi_x (q : nat * nat) : nat := 10 * q.1 + q.2.
Lemma mpi_lists : forall rank m, [2; 2] !! rank = Some m -> exists offset ids, [[0; 2; 4]; [0; 2; 4]] !! rank = Some offset /\ [[(0, 1); (0, 0); (0, 0); (0, 1)]; [(1, 0); (1, 1); (1, 0); (1, 1)]] !! rank = Some ids /\ NeighbourListsMpi [2; 2] (mpi_near mpi_x) rank m offset ids.
Proof.
  intros rank m Hm. destruct rank as [|[|]]; [| |done]; simpl in Hm; injection Hm as <-; do 2 eexists; (split; [done|]); (split; [done|]); (split; [done|]); (split; [done|]); (split; [done|]); intros i Hi.
  - destruct i as [|[|]]; [| |lia]; [exists 0, [(0, 1); (0, 0)]|exists 2, [(0, 0); (0, 1)]]; (split; [done|]); (split; [done|]); (split; [apply (bool_decide_unpack _); vm_compute; reflexivity|]); intros k q Hk; destruct k as [|[|]]; simpl in Hk; try done.
  - destruct i as [|[|]]; [| |lia]; [exists 0, [(1, 0); (1, 1)]|exists 2, [(1, 0); (1, 1)]]; (split; [done|]); (split; [done|]); (split; [apply (bool_decide_unpack _); vm_compute; reflexivity|]); intros k q Hk; destruct k as [|[|]]; simpl in Hk; try done.
Qed.
Theorem C82_refuted : exists ns minpts near labels orders first second (nbs : list (list (nat * nat))),
  (forall p q, near p q = near q p) /\ (forall q, near q q = true) /\ Forall2 (fun m ls => length ls = m) ns labels /\ Forall2 (fun m order => order ≡ₚ seq 0 m) ns orders /\ length first = length ns /\
  (forall rank m, ns !! rank = Some m -> exists offset ids, first !! rank = Some offset /\ nbs !! rank = Some ids /\ NeighbourListsMpi ns near rank m offset ids) /\
  (forall rank m, ns !! rank = Some m -> exists offset ids, second !! rank = Some offset /\ nbs !! rank = Some ids /\ NeighbourListsMpi ns near rank m offset ids) /\
  verify_mpi minpts labels orders first second nbs = Some true /\ ~ ClusteringMpi ns minpts near labels.
Proof.
  exists [2; 2], 2, (mpi_near mpi_x), [[0; 0]; [0; 0]]%Z, [[0; 1]; [1; 0]], [[0; 2; 4]; [0; 2; 4]], [[0; 2; 4]; [0; 2; 4]], [[(0, 1); (0, 0); (0, 0); (0, 1)]; [(1, 0); (1, 1); (1, 0); (1, 1)]].
  pose proof mpi_lists as HL.
  split; [intros p q; unfold mpi_near; apply andb_comm|]. split; [intros q; unfold mpi_near; rewrite !(proj2 (Nat.leb_le _ _)) by lia; done|]. split; [repeat constructor|]. split; [repeat constructor|]. split; [done|]. split; [done|]. split; [done|].
  split; [vm_compute; reflexivity|]. intros [_ H]. assert (forall q, q ∈ AllPoints [2; 2] -> CorePoint [2; 2] 2 (mpi_near mpi_x) q) as Hc.
  { intros q Hq. split; [done|]. revert q Hq. apply Forall_forall. unfold AllPoints. simpl. repeat constructor; apply Nat.leb_le; vm_compute; reflexivity. }
  specialize (H (0, 0) (1, 0) ltac:(apply Hc, elem_of_list_In; vm_compute; tauto) ltac:(apply Hc, elem_of_list_In; vm_compute; tauto) eq_refl).
  assert (forall p q, clos_refl_sym_trans _ (CoreLink [2; 2] 2 (mpi_near mpi_x)) p q -> p.1 = q.1) as Hs; [|by apply Hs in H].
  clear. intros p q HC. induction HC as [p q ((Hp & _) & (Hq & _) & Hn)|x|x y _ IH|x y z _ IH1 _ IH2]; [|done|done|congruence].
  unfold mpi_near, mpi_x in Hn. apply andb_true_iff in Hn as [H1 H2]. apply Nat.leb_le in H1, H2.
  assert (forall q, q ∈ AllPoints [2; 2] -> q.2 < 2) as Hb by (apply Forall_forall; unfold AllPoints; simpl; repeat constructor). pose proof (Hb p Hp). pose proof (Hb q Hq). lia.
Qed.
Print Assumptions C82_refuted.

(** The same points: accepted and rejected labels. *)
Example C82_example : Forall2 (fun m ls => length ls = m) [2; 2] [[3; 3]; [0; 0]]%Z /\ Forall2 (fun m order => order ≡ₚ seq 0 m) [2; 2] [[0; 1]; [1; 0]] /\
  let v labels := verify_mpi 2 labels [[0; 1]; [1; 0]] [[0; 2; 4]; [0; 2; 4]] [[0; 2; 4]; [0; 2; 4]] [[(0, 1); (0, 0); (0, 0); (0, 1)]; [(1, 0); (1, 1); (1, 0); (1, 1)]] in
  v [[3; 3]; [0; 0]]%Z = Some true /\ v [[3; 3]; [0; -1]]%Z = Some false.
Proof. split; [repeat constructor|]. split; [repeat constructor|]. split; vm_compute; reflexivity. Qed.
(** ** Concrete cases *)
(** Eight points on a line, eps = 2; with minpts = 4 the core points are the third and the fifth, and the fourth is a border point of both. *)
Definition line : list nat := [0; 1; 2; 4; 6; 7; 8; 20].
Definition line_near (i j : nat) : bool := match line !! i, line !! j with Some x, Some y => (x <=? y + 2) && (y <=? x + 2) | _, _ => false end.
Definition line_rows : list (list nat) := map (fun i => rev (List.filter (line_near i) (seq 0 8))) (seq 0 8).
Definition line_offset : list nat := 0 :: map (fun i => sum_list (map length (take (S i) line_rows))) (seq 0 8).
Definition line_indices : list nat := concat line_rows.
Lemma line_lists : NeighbourLists 8 line_near line_offset line_indices.
Proof.
  split; [done|]. split; [done|]. split; [vm_compute; reflexivity|]. intros i Hi. destruct (lookup_lt_is_Some_2 line_rows i ltac:(vm_compute; lia)) as [r Hr].
  exists (nth i line_offset 0), r.
  assert (Forall (fun i => line_offset !! i = Some (nth i line_offset 0) /\ line_offset !! S i = Some (nth i line_offset 0 + length (nth i line_rows [])) /\
    bool_decide (nth i line_rows [] ≡ₚ List.filter (line_near i) (seq 0 8)) = true /\ take (length (nth i line_rows [])) (drop (nth i line_offset 0) line_indices) = nth i line_rows []) (seq 0 8)) as HF by (repeat constructor).
  rewrite Forall_forall in HF. specialize (HF i ltac:(apply elem_of_seq; lia)) as (F1 & F2 & F3 & F4). rewrite (nth_lookup_Some line_rows i [] r Hr) in F2, F3, F4. split; [done|]. split; [done|]. split; [by apply bool_decide_eq_true_1 in F3|].
  intros k j Hk. rewrite <- F4 in Hk. rewrite <- lookup_drop. apply lookup_take_Some in Hk. apply Hk.
Qed.
Example C81_example : (forall i, i < 8 -> line_near i i = true) /\ (forall i j, i < 8 -> j < 8 -> line_near i j = line_near j i) /\ NeighbourLists 8 line_near line_offset line_indices /\
  (forall labels, labels ∈ [[0; 0; 0; 0; 9; 9; 9; -1]; [5; 5; 5; 4; 4; 4; 4; -1]]%Z -> verify_dbscan false 4 labels [3; 2; 0; 1; 7; 6; 5; 4] line_offset line_indices = Some true) /\
  (forall labels, labels ∈ [[0; 0; 0; 0; 0; 0; 0; -1]; [0; 0; 0; -1; 9; 9; 9; -1]; [0; 0; 0; 0; 9; 9; 9; 9]; [0; 0; 0; 0; -1; -1; -1; -1]; [0; 0; 0; 1; 9; 9; 9; -1]]%Z ->
    verify_dbscan false 4 labels (seq 0 8) line_offset line_indices = Some false) /\
  verify_dbscan true 4 [-1; -1; 0; -1; 9; -1; -1; -1]%Z (seq 0 8) line_offset line_indices = Some true /\ verify_dbscan true 3 [0; 0; 0; 0; 0; 0; 0; -1]%Z (seq 0 8) line_offset line_indices = Some true.
Proof.
  split; [|split; [|split; [apply line_lists|split; [|split; [|split; vm_compute; reflexivity]]]]].
  - intros i Hi. assert (Forall (fun i => line_near i i = true) (seq 0 8)) as HF by (repeat constructor). rewrite Forall_forall in HF. apply HF, elem_of_seq. lia.
  - intros i j _ _. unfold line_near. destruct (line !! i), (line !! j); try done. apply andb_comm.
  - apply Forall_forall. repeat constructor.
  - apply Forall_forall. repeat constructor.
Qed.
