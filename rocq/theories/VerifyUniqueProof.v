(** Proofs about the verifier of DBSCAN clusterings: marking the core points, counting the components. *)
From Coq Require Import Relations.Operators_Properties.
From Verif Require Import VerifyModel VerifySpec VerifyProof.
Local Open Scope nat_scope.

Definition key_of (e : entry) : nat * nat := (e_rank e, e_index e).
Lemma key_E lab core q : key_of (E lab core q) = q.
Proof. by destruct q. Qed.
Lemma keys_E lab core l : map key_of (map (E lab core) l) = l.
Proof. rewrite map_map. erewrite map_ext; [apply map_id|]. intros q. apply key_E. Qed.
(** The tails of the rows as a function *)
Lemma sorted_intro offset n rank lab core nb rs (P : nat -> list (nat * nat) -> Prop) : Rows offset n nb rs ->
  (forall i, i < n -> exists t, rs !! i = Some (E lab core (rank, i) :: map (E lab core) t) /\ P i t) ->
  exists t, Sorted offset n rank lab core nb t /\ forall i, i < n -> P i (t i).
Proof.
  intros HR H. exists (fun i => match rs !! i with Some (_ :: l) => map key_of l | _ => [] end). split.
  - exists rs. split; [done|]. intros i Hi. destruct (H i Hi) as (t & -> & _). by rewrite keys_E.
  - intros i Hi. destruct (H i Hi) as (t & -> & HP). by rewrite keys_E.
Qed.

Section Mpi.
Variables (offset : list nat) (n rank : nat) (lab : nat * nat -> Z) (core : nat * nat -> bool) (ks : nat -> list (nat * nat)).
Hypothesis Hself : forall i, i < n -> (rank, i) ∈ ks i.
Lemma set_neighbors_mpi_ok order : forall nb rs, Rows offset n nb rs -> NoDup order -> (forall i, i ∈ order -> i < n /\ rs !! i = Some (map (E lab core) (ks i))) ->
  exists nb' rs', set_neighbors_mpi offset rank order nb = Some nb' /\ length nb' = length nb /\ Rows offset n nb' rs' /\
    (forall i, i ∈ order -> exists t, rs' !! i = Some (E lab core (rank, i) :: map (E lab core) t) /\ (rank, i) :: t ≡ₚ ks i) /\ (forall i, i ∉ order -> rs' !! i = rs !! i).
Proof.
  induction order as [|i order IH]; intros nb rs HR HN HO.
  - exists nb, rs. split; [done|]. split; [done|]. split; [done|]. split; [intros i Hi; by apply elem_of_nil in Hi|done].
  - apply NoDup_cons in HN as [Hni HN]. destruct (HO i ltac:(by left)) as [Hi Hri]. destruct (place_self_ok offset n rank lab core nb rs i (ks i) HR Hri (Hself i Hi)) as (nb1 & t & E1 & L1 & P1 & R1).
    destruct (IH nb1 _ R1 HN) as (nb' & rs' & E2 & L2 & R2 & T2 & U2).
    { intros j Hj. destruct (HO j ltac:(by right)) as [Hj1 Hj2]. split; [done|]. rewrite list_lookup_insert_ne; [done|]. by intros ->. }
    exists nb', rs'. cbn [set_neighbors_mpi]. rewrite E1. split; [done|]. split; [congruence|]. split; [done|]. split.
    + intros j Hj. apply elem_of_cons in Hj as [->|Hj]; [|by apply T2]. exists t. split; [|done]. rewrite (U2 i Hni). apply list_lookup_insert. by apply lookup_lt_Some in Hri.
    + intros j Hj. apply not_elem_of_cons in Hj as [Hj1 Hj2]. rewrite (U2 j Hj2). by rewrite list_lookup_insert_ne.
Qed.
End Mpi.

Section Serial.
Variables (offset : list nat) (n minpts : nat) (labels : list Z) (r : nat -> list nat).
Hypothesis Hoff : forall j, j < n -> exists o, offset !! j = Some o /\ offset !! S j = Some (o + length (r j)).
Hypothesis Hr : forall i j, i < n -> j ∈ r i -> j < n.
Hypothesis Hself : forall i, i < n -> i ∈ r i.
Definition lab (q : nat * nat) : Z := nth q.2 labels 0%Z.
Definition core (q : nat * nat) : bool := minpts <=? length (r q.2).
Definition E0 (j : nat) : entry := Entry j 0 (lab (0, j)) false.
Notation E := (E lab core).

Lemma mark_core_ok i o todo : offset !! i = Some o -> (forall j, j ∈ todo -> j < n) -> forall done nb rs, Rows offset n nb rs -> rs !! i = Some (map E (map (pair 0) done) ++ map E0 todo) ->
  exists nb', mark_core offset minpts (seq (o + length done) (length todo)) nb = Some nb' /\ length nb' = length nb /\ Rows offset n nb' (<[i := map E (map (pair 0) (done ++ todo))]> rs).
Proof.
  intros Ho. induction todo as [|j todo IH]; intros Ht done nb rs HR Hi.
  - exists nb. split; [done|]. split; [done|]. rewrite app_nil_r. cbn [map] in Hi. rewrite app_nil_r in Hi. by rewrite list_insert_id.
  - cbn [length seq mark_core]. pose proof HR as HR'. destruct HR as (HL & HLr & HR). destruct (HR i _ Hi) as (o1 & F1 & F2 & F3). rewrite Ho in F1. injection F1 as <-.
    assert (length (map E (map (pair 0) done)) = length done) as Ld by (by rewrite !map_length).
    rewrite (F3 (length done) (E0 j)) by (rewrite lookup_app_r by lia; by rewrite Ld, Nat.sub_diag). cbn [mbind option_bind e_index E0]. destruct (Hoff j) as (oj & G1 & G2); [apply Ht; by left|].
    rewrite G1, G2. cbn [mbind option_bind]. destruct (rows_write offset n nb rs i _ o (length done) (E (0, j)) HR' Hi Ho ltac:(rewrite app_length; simpl; lia)) as [B1 R1].
    replace (with_core (E0 j) (minpts <=? oj + length (r j) - oj)) with (E (0, j)) by (unfold with_core, E0, VerifyProof.E, core; simpl; do 2 f_equal; lia).
    rewrite wr_Some by done. cbn [mbind option_bind].
    assert (<[length done:=E (0, j)]> (map E (map (pair 0) done) ++ map E0 (j :: todo)) = map E (map (pair 0) (done ++ [j])) ++ map E0 todo) as Er.
    { rewrite insert_app_r_alt by lia. rewrite Ld, Nat.sub_diag. simpl. rewrite map_app, map_app. by rewrite <- app_assoc. }
    rewrite Er in R1. destruct (IH ltac:(intros x Hx; apply Ht; by right) (done ++ [j]) _ _ R1) as (nb' & E1 & L1 & R2).
    { apply list_lookup_insert. by apply lookup_lt_Some in Hi. }
    exists nb'. rewrite app_length in E1. cbn [length] in E1. replace (S (o + length done)) with (o + (length done + 1)) by lia. split; [done|]. rewrite insert_length in L1. split; [done|].
    rewrite list_insert_insert in R2. by rewrite <- app_assoc in R2.
Qed.
Lemma set_neighbors_ok order : forall nb rs, Rows offset n nb rs -> NoDup order -> (forall i, i ∈ order -> i < n /\ rs !! i = Some (map E0 (r i))) ->
  exists nb' rs', set_neighbors offset minpts order nb = Some nb' /\ length nb' = length nb /\ Rows offset n nb' rs' /\
    (forall i, i ∈ order -> exists t, rs' !! i = Some (E (0, i) :: map E t) /\ (0, i) :: t ≡ₚ map (pair 0) (r i)) /\ (forall i, i ∉ order -> rs' !! i = rs !! i).
Proof.
  induction order as [|i order IH]; intros nb rs HR HN HO.
  - exists nb, rs. split; [done|]. split; [done|]. split; [done|]. split; [intros i Hi; by apply elem_of_nil in Hi|done].
  - apply NoDup_cons in HN as [Hni HN]. destruct (HO i ltac:(by left)) as [Hi Hri]. destruct (Hoff i Hi) as (o & Ho & Ho'). cbn [set_neighbors]. rewrite Ho, Ho'. cbn [mbind option_bind].
    destruct (mark_core_ok i o (r i) Ho ltac:(intros j Hj; by apply (Hr i)) [] nb rs HR Hri) as (nb0 & E1 & L1 & R1). simpl in E1. rewrite Nat.add_0_r in E1.
    replace (o + length (r i) - o) with (length (r i)) by lia. rewrite E1. cbn [mbind option_bind].
    assert (i < length rs) as Hir by (by apply lookup_lt_Some in Hri).
    destruct (place_self_ok offset n 0 lab core nb0 _ i (map (pair 0) (r i)) R1 ltac:(by apply list_lookup_insert)) as (nb1 & t & E2 & L2 & P2 & R2).
    { apply elem_of_list_In, in_map, elem_of_list_In. by apply Hself. }
    rewrite E2. cbn [mbind option_bind]. rewrite list_insert_insert in R2. destruct (IH nb1 _ R2 HN) as (nb' & rs' & E3 & L3 & R3 & T3 & U3).
    { intros j Hj. destruct (HO j ltac:(by right)) as [Hj1 Hj2]. split; [done|]. rewrite list_lookup_insert_ne; [done|]. by intros ->. }
    exists nb', rs'. split; [done|]. split; [congruence|]. split; [done|]. split.
    + intros j Hj. apply elem_of_cons in Hj as [->|Hj]; [|by apply T3]. exists t. split; [|done]. rewrite (U3 i Hni). by apply list_lookup_insert.
    + intros j Hj. apply not_elem_of_cons in Hj as [Hj1 Hj2]. rewrite (U3 j Hj2). by rewrite list_lookup_insert_ne.
Qed.
End Serial.

(** ** Counting the components *)
Lemma filter_len {A} (f : A -> bool) l : length (List.filter f l) <= length l.
Proof. induction l as [|a l IH]; simpl; [done|]. destruct (f a); simpl; lia. Qed.
Lemma remove_dups_same (l k : list Z) : (forall x, x ∈ l <-> x ∈ k) -> length (remove_dups l) = length (remove_dups k).
Proof.
  intros H. apply Permutation_length. apply NoDup_Permutation; [apply NoDup_remove_dups..|]. intros x. by rewrite !elem_of_remove_dups.
Qed.
Lemma remove_dups_length (l : list Z) : length (remove_dups l) = length l <-> NoDup l.
Proof.
  split; intros H.
  - assert (remove_dups l ⊆+ l) as HS by (apply NoDup_submseteq; [apply NoDup_remove_dups|]; intros x; by rewrite elem_of_remove_dups).
    apply submseteq_Permutation_length_eq in HS; [|done]. rewrite <- HS. apply NoDup_remove_dups.
  - apply Permutation_length. apply NoDup_Permutation; [apply NoDup_remove_dups|done|]. intros x. by rewrite elem_of_remove_dups.
Qed.

Section Unique.
Variables (offset : list nat) (n : nat) (lab : nat -> Z) (core : nat -> bool) (t : nat -> list nat).
Hypothesis Ht : forall i j, i < n -> j ∈ t i -> j < n.
Notation E := (fun j => Entry j 0 (lab j) (core j)).
(** The current labels of the first entries of the rows; the rest of the rows does not change. *)
Definition St (nb : list entry) (cur : nat -> Z) : Prop := exists rs, Rows offset n nb rs /\ forall i, i < n -> rs !! i = Some (Entry i 0 (cur i) (core i) :: map E (t i)).
Definition upd (cur : nat -> Z) (i : nat) (l : Z) : nat -> Z := fun k => if k =? i then l else cur k.

Lemma st_self nb cur i : St nb cur -> i < n -> self offset nb i = Some (Entry i 0 (cur i) (core i)).
Proof. intros (rs & HR & H) Hi. exact (rows_self offset n nb rs i _ _ HR (H i Hi)). Qed.
Lemma st_row nb cur i : St nb cur -> i < n -> row offset 0 nb i = Some (Entry i 0 (cur i) (core i) :: map E (t i)).
Proof. intros (rs & HR & H) Hi. exact (rows_row offset n nb rs i _ 0 HR (H i Hi)). Qed.
Lemma st_number nb cur : St nb cur -> rows_number offset = n.
Proof. intros (rs & HR & _). exact (rows_number_n offset n nb rs HR). Qed.
Lemma st_set nb cur i l : St nb cur -> i < n -> exists nb', set_label offset nb i l = Some nb' /\ length nb' = length nb /\ St nb' (upd cur i l).
Proof.
  intros (rs & HR & H) Hi. pose proof HR as (HL & HLr & HR'). destruct (HR' i _ (H i Hi)) as (o & Ho & _ & He). unfold set_label. rewrite Ho. simpl. pose proof (He 0 _ eq_refl) as H0. rewrite Nat.add_0_r in H0. rewrite H0. simpl.
  destruct (rows_write offset n nb rs i _ o 0 (with_label (Entry i 0 (cur i) (core i)) l) HR (H i Hi) Ho ltac:(simpl; lia)) as [B R]. rewrite Nat.add_0_r in B, R. rewrite wr_Some by done. eexists. split; [done|]. split; [by rewrite insert_length|].
  eexists. split; [exact R|]. intros j Hj. unfold upd. destruct (Nat.eqb_spec j i) as [->|Hne]; [rewrite list_lookup_insert by lia; done|]. rewrite list_lookup_insert_ne by done. by apply H.
Qed.

Lemma existsb_coreE l : existsb e_core (map E l) = true <-> exists j, j ∈ l /\ core j = true.
Proof.
  rewrite existsb_exists. split.
  - intros (e & He & Hc). apply in_map_iff in He as (q & <- & Hq). exists q. split; [by apply elem_of_list_In|done].
  - intros (q & Hq & Hc). exists (E q). split; [apply (in_map E); by apply elem_of_list_In|done].
Qed.
Lemma drop_border_ok is : forall nb cur, St nb cur -> (forall i, i ∈ is -> i < n) -> exists nb' cur', drop_border offset is nb = Some nb' /\ length nb' = length nb /\ St nb' cur' /\
  (forall i, cur' i = cur i \/ core i = false /\ cur' i = (-1)%Z) /\ (forall i, i ∈ is -> core i = false -> (exists j, j ∈ t i /\ core j = true) -> cur' i = (-1)%Z).
Proof.
  induction is as [|i is IH]; intros nb cur HS Hn.
  - exists nb, cur. split; [done|]. split; [done|]. split; [done|]. split; [by left|]. intros i Hi. by apply elem_of_nil in Hi.
  - assert (i < n) as Hi by (apply Hn; by left). cbn [drop_border]. rewrite (st_self nb cur i HS Hi). cbn [mbind option_bind e_core].
    destruct (core i) eqn:Hc.
    { destruct (IH nb cur HS ltac:(intros j Hj; apply Hn; by right)) as (nb' & cur' & E1 & L1 & S1 & C1 & D1). exists nb', cur'. split; [done|]. split; [done|]. split; [done|]. split; [done|].
      intros j Hj Hcj Hex. apply elem_of_cons in Hj as [->|Hj]; [congruence|]. by apply D1. }
    rewrite (st_row nb cur i HS Hi). cbn [mbind option_bind existsb e_core]. rewrite Hc. cbn [orb]. destruct (existsb e_core (map E (t i))) eqn:Ex.
    + destruct (st_set nb cur i (-1) HS Hi) as (nb1 & E0 & L0 & S0). rewrite E0. cbn [mbind option_bind]. destruct (IH nb1 _ S0 ltac:(intros j Hj; apply Hn; by right)) as (nb' & cur' & E1 & L1 & S1 & C1 & D1).
      exists nb', cur'. split; [done|]. split; [congruence|]. split; [done|].
      assert (forall j, cur' j = cur j \/ core j = false /\ cur' j = (-1)%Z) as C2.
      { intros j. destruct (C1 j) as [Hj|Hj]; [|by right]. unfold upd in Hj. destruct (Nat.eqb_spec j i) as [Eji|Hne]; [subst j; by right|by left]. }
      split; [done|]. intros j Hj Hcj Hex. apply elem_of_cons in Hj as [->|Hj]; [|by apply D1]. destruct (C1 i) as [Hj|Hj]; [|by destruct Hj]. rewrite Hj. unfold upd. by rewrite Nat.eqb_refl.
    + destruct (IH nb cur HS ltac:(intros j Hj; apply Hn; by right)) as (nb' & cur' & E1 & L1 & S1 & C1 & D1). exists nb', cur'. split; [done|]. split; [done|]. split; [done|]. split; [done|].
      intros j Hj Hcj Hex. apply elem_of_cons in Hj as [->|Hj]; [|by apply D1]. apply existsb_coreE in Hex. congruence.
Qed.

(** The entries of the rows of unvisited points *)
Definition weight (cur : nat -> Z) : nat := sum_list (map (fun k => if (0 <=? cur k)%Z then S (length (t k)) else 0) (seq 0 n)).
Lemma weight_upd cur k : k < n -> (0 <= cur k)%Z -> weight (upd cur k (-1)) + S (length (t k)) = weight cur.
Proof.
  intros Hk Hc. unfold weight. assert (forall l, NoDup l -> sum_list (map (fun j => if (0 <=? upd cur k (-1) j)%Z then S (length (t j)) else 0) l) + (if decide (k ∈ l) then S (length (t k)) else 0) =
    sum_list (map (fun j => if (0 <=? cur j)%Z then S (length (t j)) else 0) l)) as H.
  { induction l as [|j l IH]; intros HN; [by rewrite decide_False by (apply not_elem_of_nil)|]. apply NoDup_cons in HN as [Hj HN]. specialize (IH HN). cbn [map sum_list]. unfold upd at 1. destruct (Nat.eqb_spec j k) as [->|Hne].
    - rewrite decide_True by (by left). rewrite decide_False in IH by done. destruct (Z.leb_spec 0 (cur k)); [|lia]. simpl. lia.
    - destruct (decide (k ∈ l)); [rewrite decide_True by (by right)|rewrite decide_False by (apply not_elem_of_cons; by split)]; lia. }
  specialize (H (seq 0 n) (NoDup_seq _ _)). rewrite decide_True in H by (apply elem_of_seq; lia). lia.
Qed.

Definition Edge (a b : nat) : Prop := core a = true /\ core b = true /\ b ∈ t a.
(** The search from [stack]: only what is reachable becomes visited, and the visited points stay closed under edges. *)
Lemma dfs_ok fuel id : forall stack nb cur, St nb cur -> (forall k, k ∈ stack -> k < n) -> (forall k, k < n -> (0 <= cur k)%Z -> core k = true) -> length stack + weight cur < fuel ->
  exists nb' cur', dfs offset fuel id stack nb = Some nb' /\ length nb' = length nb /\ St nb' cur' /\
    (forall k, cur' k = cur k \/ cur' k = (-1)%Z /\ (0 <= cur k)%Z /\ k < n /\ exists s, s ∈ stack /\ (0 <= cur s)%Z /\ clos_refl_trans nat Edge s k) /\
    (forall k, k ∈ stack -> (cur' k < 0)%Z) /\ (forall a b, a < n -> (0 <= cur a)%Z -> (cur' a < 0)%Z -> Edge a b -> (cur' b < 0)%Z).
Proof.
  induction fuel as [|fuel IH]; intros stack nb cur HS Hst Hco Hw; [lia|]. destruct stack as [|k stack].
  { exists nb, cur. split; [done|]. split; [done|]. split; [done|]. split; [by left|]. split; [intros k Hk; by apply elem_of_nil in Hk|]. intros; lia. }
  assert (k < n) as Hk by (apply Hst; by left). cbn [dfs]. rewrite (st_self nb cur k HS Hk). cbn [mbind option_bind e_label]. destruct (Z.leb_spec 0 (cur k)) as [Hc|Hc].
  - destruct (st_set nb cur k (-1) HS Hk) as (nb1 & E1 & L1 & S1). rewrite E1. cbn [mbind option_bind]. rewrite (st_row nb1 _ k S1 Hk). cbn [mbind option_bind].
    set (row := Entry k 0 (upd cur k (-1) k) (core k) :: map E (t k)). set (new := rev (e_index <$> List.filter (fun e => e_core e || (e_label e =? id)%Z) row)).
    assert (forall j, j ∈ new -> j = k \/ j ∈ t k) as Hnew.
    { intros j Hj. unfold new in Hj. apply elem_of_list_In in Hj. apply in_rev in Hj. apply in_map_iff in Hj as (e & <- & He). apply filter_In in He as [He _]. destruct He as [<-|He]; [by left|].
      apply in_map_iff in He as (j & <- & Hj). right. simpl. by apply elem_of_list_In. }
    assert (forall j, j ∈ t k -> core j = true -> j ∈ new) as Hpush.
    { intros j Hj Hcj. unfold new. apply elem_of_list_In, in_rev. rewrite rev_involutive. apply in_map_iff. exists (E j). split; [done|]. apply filter_In. split; [right; apply (in_map E); by apply elem_of_list_In|]. simpl. by rewrite Hcj. }
    assert (length new <= S (length (t k))) as Hln.
    { unfold new. rewrite rev_length, fmap_length. transitivity (length row); [apply filter_len|]. unfold row. simpl. by rewrite map_length. }
    pose proof (weight_upd cur k Hk Hc) as Hwu.
    destruct (IH (new ++ stack) nb1 (upd cur k (-1)) S1) as (nb' & cur' & E2 & L2 & S2 & A2 & B2 & C2).
    + intros j Hj. apply elem_of_app in Hj as [Hj|Hj]; [|apply Hst; by right]. apply Hnew in Hj as [->|Hj]; [done|]. exact (Ht k j Hk Hj).
    + intros j Hj Hcj. apply Hco; [done|]. unfold upd in Hcj. destruct (Nat.eqb_spec j k); lia.
    + rewrite app_length. simpl in Hw. lia.
    + exists nb', cur'. split; [done|]. split; [congruence|]. split; [done|].
      assert (cur' k = (-1)%Z) as Hck.
      { destruct (A2 k) as [->|[-> _]]; [|done]. unfold upd. by rewrite Nat.eqb_refl. }
      assert (core k = true) as Hcok by (by apply Hco). split; [|split].
      * intros j. destruct (decide (j = k)) as [->|Hne]; [right; split; [done|]; split; [done|]; split; [done|]; exists k; split; [by left|]; split; [done|apply rt_refl]|].
        destruct (A2 j) as [Hj|(Hj & Hj0 & Hjn & s & Hs & Hs0 & Hr)].
        { left. rewrite Hj. unfold upd. by destruct (Nat.eqb_spec j k). }
        right. assert (forall x, (0 <= upd cur k (-1) x)%Z -> (0 <= cur x)%Z) as Hup by (intros x; unfold upd; destruct (Nat.eqb_spec x k); lia). split; [done|]. split; [by apply Hup|]. split; [done|].
        apply elem_of_app in Hs as [Hs|Hs]; [|exists s; split; [by right|]; split; [by apply Hup|done]]. apply Hnew in Hs as [->|Hs]; [exfalso; unfold upd in Hs0; rewrite Nat.eqb_refl in Hs0; lia|].
        exists k. split; [by left|]. split; [done|]. apply rt_trans with s; [|done]. apply rt_step. split; [done|]. split; [|done]. apply Hco; [exact (Ht k s Hk Hs)|by apply Hup].
      * intros j Hj. apply elem_of_cons in Hj as [->|Hj]; [lia|]. apply B2. apply elem_of_app. by right.
      * intros a b Ha Ha0 Ha' HE. destruct (decide (a = k)) as [->|Hne].
        { apply B2. apply elem_of_app. left. by apply Hpush; apply HE. }
        apply (C2 a b); try done. unfold upd. by destruct (Nat.eqb_spec a k).
  - destruct (IH stack nb cur HS ltac:(intros j Hj; apply Hst; by right) Hco ltac:(simpl in Hw; lia)) as (nb' & cur' & E2 & L2 & S2 & A2 & B2 & C2). exists nb', cur'. split; [done|]. split; [done|]. split; [done|]. split; [|split].
    + intros j. destruct (A2 j) as [Hj|(Hj & Hj0 & Hjn & s & Hs & Hr)]; [by left|]. right. split; [done|]. split; [done|]. split; [done|]. exists s. split; [by right|done].
    + intros j Hj. apply elem_of_cons in Hj as [->|Hj]; [|by apply B2]. destruct (A2 k) as [->|[-> _]]; lia.
    + done.
Qed.

Hypothesis Hsym : forall a b, a < n -> Edge a b -> Edge b a.
Lemma edge_lt a b : a < n -> Edge a b -> b < n.
Proof. intros Ha (_ & _ & Hb). exact (Ht a b Ha Hb). Qed.
(** Edges between points of the array *)
Definition Link (a b : nat) : Prop := a < n /\ Edge a b.
Lemma reach_conn a b : a < n -> clos_refl_trans nat Edge a b -> b < n /\ Conn Link a b.
Proof.
  intros Ha H. apply Operators_Properties.clos_rt_rt1n in H. induction H as [x|x y z Hxy Hyz IH]; [split; [done|apply rst_refl]|]. assert (y < n) as Hy by exact (edge_lt x y Ha Hxy). destruct (IH Hy) as [Hz Hc]. split; [done|].
  apply rst_trans with y; [|done]. by apply rst_step.
Qed.
Lemma conn_closed (P : nat -> Prop) : (forall a b, a < n -> Edge a b -> P a -> P b) -> forall a b, Conn Link a b -> P a <-> P b.
Proof.
  intros H a b Hc. induction Hc as [x y [Hx HE]|x|x y _ IH|x y z _ IH1 _ IH2]; [|done|by symmetry|by rewrite IH1].
  split; [by apply H|]. apply (H y x); [exact (edge_lt x y Hx HE)|by apply Hsym].
Qed.

Lemma weight_le nb cur m : St nb cur -> offset !! n = Some m -> m <= length nb -> weight cur <= length nb.
Proof.
  intros (rs & HR & H) Hm Hle. assert (forall a k, a + k = n -> exists o, offset !! a = Some o /\ o + sum_list (map (fun k => if (0 <=? cur k)%Z then S (length (t k)) else 0) (seq a k)) <= m) as Hw.
  { intros a k. revert a. induction k as [|k IH]; intros a Hak.
    - replace a with n by lia. exists m. split; [done|]. simpl. lia.
    - destruct (IH (S a) ltac:(lia)) as (o' & Ho' & Hs). destruct HR as (_ & _ & HR). destruct (HR a _ (H a ltac:(lia))) as (o & E1 & E2 & _). exists o. split; [done|]. rewrite E2 in Ho'. injection Ho' as <-.
      cbn [seq map sum_list]. cbn [length] in Hs. rewrite map_length in Hs. destruct (0 <=? cur a)%Z; simpl; lia. }
  destruct (Hw 0 n ltac:(lia)) as (o & _ & Ho). unfold weight. lia.
Qed.

Lemma components_ok m : offset !! n = Some m -> forall is nb cur ids num, St nb cur -> m <= length nb -> (forall i, i ∈ is -> i < n) -> (forall k, k < n -> (0 <= cur k)%Z -> core k = true /\ cur k = lab k) ->
  (forall a b, a < n -> Edge a b -> (cur a < 0)%Z -> (cur b < 0)%Z) ->
  exists reps, components offset is nb ids num = Some (map lab reps ++ ids, length reps + num) /\
    (forall r, r ∈ reps -> r < n /\ core r = true /\ (0 <= cur r)%Z) /\ NoDup reps /\ (forall a b, a ∈ reps -> b ∈ reps -> Conn Link a b -> a = b) /\
    (forall k, k ∈ is -> (0 <= cur k)%Z -> exists r, r ∈ reps /\ Conn Link r k).
Proof.
  intros Hm. induction is as [|i is IH]; intros nb cur ids num HS Hnb Hi Hcur Hcl.
  - exists []. split; [done|]. split; [intros r Hr; by apply elem_of_nil in Hr|]. split; [constructor|]. split; [intros a b Ha; by apply elem_of_nil in Ha|]. intros k Hk. by apply elem_of_nil in Hk.
  - assert (i < n) as Hin by (apply Hi; by left). cbn [components]. rewrite (st_self nb cur i HS Hin). cbn [mbind option_bind e_label]. destruct (Z.leb_spec 0 (cur i)) as [Hc|Hc].
    + destruct (dfs_ok (S (S (length nb))) (cur i) [i] nb cur HS) as (nb' & cur' & E1 & L1 & S1 & A1 & B1 & C1).
      { intros k Hk. apply elem_of_list_singleton in Hk. by subst k. }
      { intros k Hk H0. by apply Hcur. }
      { pose proof (weight_le nb cur m HS Hm Hnb). simpl. lia. }
      rewrite E1. cbn [mbind option_bind].
      assert (forall k, (0 <= cur' k)%Z -> cur' k = cur k) as Hcc by (intros k Hk; destruct (A1 k) as [Hk'|[Hk' _]]; [done|lia]).
      assert (forall a b, a < n -> Edge a b -> (cur' a < 0)%Z -> (cur' b < 0)%Z) as Hcl'.
      { intros a b Ha HE Ha'. destruct (Z.leb_spec 0 (cur a)) as [Ha0|Ha0]; [exact (C1 a b Ha Ha0 Ha' HE)|]. pose proof (Hcl a b Ha HE Ha0). destruct (A1 b) as [->|[-> _]]; lia. }
      assert (forall k, k < n -> (0 <= cur' k)%Z -> core k = true /\ cur' k = lab k) as Hcur' by (intros k Hk H0; pose proof (Hcc k H0) as Ek; rewrite Ek in *; by apply Hcur).
      destruct (IH nb' cur' (cur i :: ids) (S num) S1 ltac:(lia) ltac:(intros k Hk; apply Hi; by right) Hcur' Hcl') as (reps & E2 & R1 & R2 & R3 & R4).
      assert (cur' i < 0)%Z as Hi' by (apply B1; by left). destruct (Hcur i Hin Hc) as [Hco Hla].
      assert (forall r, r ∈ reps -> ~ Conn Link i r) as Hdis.
      { intros r Hr HC. destruct (R1 r Hr) as (_ & _ & H0). pose proof (conn_closed (fun x => (cur' x < 0)%Z) Hcl' i r HC) as [HC' _]. specialize (HC' Hi'). lia. }
      exists (reps ++ [i]). split.
      { rewrite E2. rewrite map_app, <- app_assoc, app_length. simpl. rewrite Hla. do 2 f_equal. lia. }
      split; [|split; [|split]].
      * intros r Hr. apply elem_of_app in Hr as [Hr|Hr].
        { destruct (R1 r Hr) as (X1 & X2 & X3). split; [done|]. split; [done|]. pose proof (Hcc r X3). lia. }
        apply elem_of_list_singleton in Hr as ->. done.
      * apply NoDup_app. split; [done|]. split; [|apply NoDup_singleton]. intros r Hr Hri. apply elem_of_list_singleton in Hri as ->. apply (Hdis i Hr). apply rst_refl.
      * intros a b Ha Hb HC. apply elem_of_app in Ha as [Ha|Ha], Hb as [Hb|Hb].
        { by apply R3. }
        { apply elem_of_list_singleton in Hb as ->. exfalso. apply (Hdis a Ha). by apply rst_sym. }
        { apply elem_of_list_singleton in Ha as ->. exfalso. by apply (Hdis b Hb). }
        { apply elem_of_list_singleton in Ha as ->. by apply elem_of_list_singleton in Hb as ->. }
      * intros k Hk H0. destruct (Z.leb_spec 0 (cur' k)) as [Hk0|Hk0].
        { apply elem_of_cons in Hk as [->|Hk]; [lia|]. destruct (R4 k Hk Hk0) as (r & Hr & HC). exists r. split; [apply elem_of_app; by left|done]. }
        exists i. split; [apply elem_of_app; right; by left|]. destruct (A1 k) as [Hk'|(_ & _ & _ & s & Hs & _ & Hr)]; [lia|]. apply elem_of_list_singleton in Hs as ->. by apply reach_conn.
    + destruct (IH nb cur ids num HS Hnb ltac:(intros k Hk; apply Hi; by right) Hcur Hcl) as (reps & E2 & R1 & R2 & R3 & R4). exists reps. split; [done|]. split; [done|]. split; [done|]. split; [done|].
      intros k Hk H0. apply elem_of_cons in Hk as [->|Hk]; [lia|]. by apply R4.
Qed.

Lemma clusters_unique_ok nb m : St nb lab -> offset !! n = Some m -> m <= length nb -> (forall i, i < n -> core i = true -> (0 <= lab i)%Z) -> (forall a b, a < n -> Edge a b -> lab a = lab b) ->
  (forall i, i < n -> core i = false -> (exists j, j ∈ t i /\ core j = true) \/ lab i = (-1)%Z) ->
  exists b, clusters_unique offset nb = Some b /\ (b = true <-> forall i j, i < n -> j < n -> core i = true -> core j = true -> lab i = lab j -> Conn Link i j).
Proof.
  intros HS Hm Hnb Hpos Heq Hnoise. unfold clusters_unique. rewrite (st_number nb lab HS). destruct (drop_border_ok (seq 0 n) nb lab HS) as (nb' & cur & E1 & L1 & S1 & A1 & B1).
  { intros i Hi. apply elem_of_seq in Hi. lia. }
  rewrite E1. cbn [mbind option_bind].
  assert (forall i, i < n -> cur i = if core i then lab i else (-1)%Z) as Hcur.
  { intros i Hi. destruct (core i) eqn:Hc; [destruct (A1 i) as [|[? _]]; congruence|]. destruct (Hnoise i Hi Hc) as [Hj|Hl]; [apply B1; try done; apply elem_of_seq; lia|]. destruct (A1 i) as [->|[_ ->]]; done. }
  rewrite (mapM_total _ cur) by (intros i Hi; apply elem_of_seq in Hi; rewrite (st_self nb' cur i S1) by lia; done). cbn [mbind option_bind].
  destruct (components_ok m Hm (seq 0 n) nb' cur [] 0 S1 ltac:(lia)) as (reps & E2 & R1 & R2 & R3 & R4).
  { intros i Hi. apply elem_of_seq in Hi. lia. }
  { intros k Hk H0. rewrite (Hcur k Hk) in *. destruct (core k); [done|lia]. }
  { intros a b Ha (HA & HB & HE) H0. rewrite (Hcur a Ha), HA in H0. pose proof (Hpos a Ha HA). lia. }
  rewrite E2. cbn [mbind option_bind]. rewrite app_nil_r, Nat.add_0_r. eexists. split; [done|].
  assert (forall a b, Conn Link a b -> lab a = lab b) as Hconn.
  { intros a b HC. induction HC as [x y [Hx HE]|x|x y _ IH|x y z _ IH1 _ IH2]; [by apply Heq|done|done|congruence]. }
  assert (length (remove_dups (List.filter (fun l => negb (l =? -1)%Z) (map cur (seq 0 n)))) = length (remove_dups (map lab reps))) as El.
  { apply remove_dups_same. intros x. rewrite !elem_of_list_In. rewrite filter_In, !in_map_iff. split.
    - intros [(k & <- & Hk) Hx]. apply in_seq in Hk. rewrite (Hcur k) in Hx |- * by lia. destruct (core k) eqn:Hc; [|done]. pose proof (Hpos k ltac:(lia) Hc).
      destruct (R4 k) as (r & Hr & HC); [apply elem_of_seq; lia|rewrite (Hcur k), Hc by lia; done|]. exists r. split; [by apply Hconn|by apply elem_of_list_In].
    - intros (r & <- & Hr). apply elem_of_list_In in Hr. destruct (R1 r Hr) as (X1 & X2 & X3). split; [|pose proof (Hpos r X1 X2); apply negb_true_iff, Z.eqb_neq; lia].
      exists r. rewrite (Hcur r X1), X2. split; [done|]. apply in_seq. lia. }
  rewrite El, Nat.eqb_refl. cbn [negb].
  assert (NoDup (map lab reps) <-> forall i j, i < n -> j < n -> core i = true -> core j = true -> lab i = lab j -> Conn Link i j) as <-.
  { split.
    - intros HN i j Hi Hj Hci Hcj Hl. destruct (R4 i) as (ri & Hri & Ci); [apply elem_of_seq; lia|rewrite (Hcur i Hi), Hci; by apply Hpos|]. destruct (R4 j) as (rj & Hrj & Cj); [apply elem_of_seq; lia|rewrite (Hcur j Hj), Hcj; by apply Hpos|].
      assert (lab ri = lab rj) as Hr by (rewrite (Hconn _ _ Ci), (Hconn _ _ Cj); done).
      apply elem_of_list_lookup in Hri as [a Ha]. apply elem_of_list_lookup in Hrj as [b Hb].
      assert (a = b) as ->.
      { apply (NoDup_lookup (map lab reps) a b (lab ri)); [done|by rewrite list_lookup_fmap, Ha|by rewrite list_lookup_fmap, Hb, Hr]. }
      rewrite Ha in Hb. injection Hb as <-. apply rst_trans with ri; [by apply rst_sym|done].
    - intros H. apply NoDup_alt. intros a b x Ha Hb. rewrite list_lookup_fmap in Ha, Hb. apply fmap_Some in Ha as (ra & Ha & ->). apply fmap_Some in Hb as (rb & Hb & Hl).
      pose proof (elem_of_list_lookup_2 _ _ _ Ha) as Ia. pose proof (elem_of_list_lookup_2 _ _ _ Hb) as Ib. destruct (R1 ra Ia) as (X1 & X2 & _). destruct (R1 rb Ib) as (Y1 & Y2 & _).
      assert (ra = rb) as <- by (apply R3; try done; by apply H). exact (NoDup_lookup _ _ _ _ R2 Ha Hb). }
  rewrite <- remove_dups_length, map_length. destruct (Nat.eqb_spec (length reps) (length (remove_dups (map lab reps)))) as [Hq|Hq]; simpl; split; try done; intros; congruence.
Qed.
End Unique.
