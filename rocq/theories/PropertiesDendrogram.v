(** C29: the dendrogram built from the sorted edges of a spanning tree is the single-linkage dendrogram.
    C54: it also exists for a single point (refuted). *)
From Verif Require Export DendrogramProof.
From Coq Require Import Sorting.Sorted.
Local Open Scope nat_scope.

(** ** Specification *)
(** [Within edges k u v]: the edges with index below [k] connect u and v. *)
Definition Within (edges : list (nat * nat)) (k : nat) : nat -> nat -> Prop :=
  Conn (fun a b => exists e, e < k /\ edges !! e = Some (a, b)).
(** Edge [e] has an endpoint in the set [P]. *)
Definition Meets (edges : list (nat * nat)) (e : nat) (P : nat -> Prop) : Prop :=
  exists a b, edges !! e = Some (a, b) /\ (P a \/ P b).
(** The cluster formed when edge [e] is added: everything the edges up to [e] connect to its endpoints. *)
Definition Formed (edges : list (nat * nat)) (e v : nat) : Prop :=
  exists a b, edges !! e = Some (a, b) /\ Within edges (S e) a v.
(** A tree on the vertices 0..m: m edges connecting all of them. *)
Definition SpanningTree (edges : list (nat * nat)) : Prop :=
  (forall e a b, edges !! e = Some (a, b) -> a <= length edges /\ b <= length edges) /\
  forall u v, u <= length edges -> v <= length edges -> Within edges (length edges) u v.
(** [e] is an ancestor of node [x]: nodes are edges 0..m-1 and vertices m..2m. *)
Inductive Ancestor (par : list (option Z)) : nat -> nat -> Prop :=
| anc_parent x e : par !! x = Some (Some (Z.of_nat e)) -> Ancestor par x e
| anc_up x y e : par !! x = Some (Some (Z.of_nat y)) -> Ancestor par y e -> Ancestor par x e.

(** The single-linkage dendrogram of a sequence of edges. *)
Record SingleLinkage (edges : list (nat * nat)) (par : list (option Z)) : Prop := {
  sl_length : length par = length edges + S (length edges);
  (* the last edge is the root *)
  sl_root : par !! (length edges - 1) = Some (Some (-1)%Z);
  (* every other edge points to the next edge with which its cluster is merged *)
  sl_edge : forall e, e < length edges - 1 -> exists e', par !! e = Some (Some (Z.of_nat e')) /\
    e < e' < length edges /\ Meets edges e' (Formed edges e) /\ forall e'', e < e'' < e' -> ~ Meets edges e'' (Formed edges e);
  (* every vertex points to its first edge *)
  sl_vertex : forall v, v <= length edges -> exists e, par !! (length edges + v) = Some (Some (Z.of_nat e)) /\
    e < length edges /\ Meets edges e (eq v) /\ forall e', e' < e -> ~ Meets edges e' (eq v);
  (* the vertices below an edge are exactly the cluster it forms *)
  sl_below : forall e v, e < length edges -> v <= length edges -> Ancestor par (length edges + v) e <-> Formed edges e v;
  (* every edge has exactly two children *)
  sl_binary : forall e, e < length edges -> length (filter (eq (Some (Z.of_nat e))) par) = 2;
}.

(** ** Proof *)
Definition cnt (v : option Z) (par : list (option Z)) : nat := length (filter (eq v) par).
Lemma cnt_insert par q v w : cnt v (<[q:=w]> par) <= cnt v par + if decide (v = w) then 1 else 0.
Proof.
  unfold cnt. revert q. induction par as [|p par IH]; intros q; [simpl; lia|].
  destruct q as [|q]; csimpl.
  - rewrite !filter_cons. repeat case_decide; simpl; lia.
  - specialize (IH q). rewrite !filter_cons. repeat case_decide; simpl in *; lia.
Qed.
Lemma sum_bump (f : nat -> nat) c (l : list nat) : NoDup l ->
  sum_list ((fun e => (if decide (e = c) then 1 else 0) + f e) <$> l) = (if decide (c ∈ l) then 1 else 0) + sum_list (f <$> l).
Proof.
  induction l as [|x l IH]; intros Hnd; [rewrite decide_False by apply not_elem_of_nil; done|].
  apply NoDup_cons in Hnd as [Hx Hnd]. csimpl. rewrite (IH Hnd).
  destruct (decide (x = c)) as [->|Hn].
  - rewrite decide_False by done. rewrite decide_True by (by left). lia.
  - destruct (decide (c ∈ l)); [rewrite decide_True by (by right)|rewrite decide_False by (rewrite elem_of_cons; naive_solver)]; lia.
Qed.
Lemma cnt_total m par : (forall p, p ∈ par -> p = Some (-1)%Z \/ exists e, e < m /\ p = Some (Z.of_nat e)) ->
  length par <= cnt (Some (-1)%Z) par + sum_list ((fun e => cnt (Some (Z.of_nat e)) par) <$> seq 0 m).
Proof.
  induction par as [|p par IH]; intros Hall; [simpl; lia|].
  specialize (IH ltac:(intros p' Hp'; apply Hall; by right)).
  assert ((fun e => cnt (Some (Z.of_nat e)) (p :: par)) <$> seq 0 m =
          (fun e => (if decide (Some (Z.of_nat e) = p) then 1 else 0) + cnt (Some (Z.of_nat e)) par) <$> seq 0 m) as ->.
  { apply list_fmap_ext. intros _ e _. unfold cnt. rewrite filter_cons. case_decide; done. }
  destruct (Hall p ltac:(by left)) as [-> | (e0 & He0 & ->)].
  - assert (cnt (Some (-1)%Z) (Some (-1)%Z :: par) = S (cnt (Some (-1)%Z) par)) as -> by (unfold cnt; by rewrite filter_cons_True).
    assert ((fun e => (if decide (Some (Z.of_nat e) = Some (-1)%Z) then 1 else 0) + cnt (Some (Z.of_nat e)) par) <$> seq 0 m
            = (fun e => cnt (Some (Z.of_nat e)) par) <$> seq 0 m) as ->.
    { apply list_fmap_ext. intros _ e _. rewrite decide_False; [done|]. intros [=]. lia. }
    cbn [length]. lia.
  - assert (cnt (Some (-1)%Z) par <= cnt (Some (-1)%Z) (Some (Z.of_nat e0) :: par)) as Hle.
    { unfold cnt. rewrite filter_cons_False; [done|]. intros [=]. lia. }
    assert ((fun e => (if decide (Some (Z.of_nat e) = Some (Z.of_nat e0)) then 1 else 0) + cnt (Some (Z.of_nat e)) par) <$> seq 0 m
            = (fun e => (if decide (e = e0) then 1 else 0) + cnt (Some (Z.of_nat e)) par) <$> seq 0 m) as ->.
    { apply list_fmap_ext. intros _ e _. f_equal. repeat case_decide; try done; simplify_eq; lia. }
    rewrite sum_bump by apply NoDup_seq. rewrite decide_True by (apply elem_of_seq; lia).
    cbn [length]. lia.
Qed.
Lemma sum_tight (f : nat -> nat) (l : list nat) : (forall e, e ∈ l -> f e <= 2) -> 2 * length l <= sum_list (f <$> l) ->
  forall e, e ∈ l -> f e = 2.
Proof.
  induction l as [|x l IH]; intros Hle Hs e He; [by apply elem_of_nil in He|].
  assert (sum_list (f <$> l) <= 2 * length l) as Hup.
  { clear -Hle. assert (forall e, e ∈ l -> f e <= 2) as H by (intros; apply Hle; by right). clear Hle.
    induction l as [|y l IH]; csimpl; [lia|]. pose proof (H y ltac:(by left)).
    assert (sum_list (f <$> l) <= 2 * length l) by (apply IH; intros; apply H; by right). lia. }
  csimpl in *. pose proof (Hle x ltac:(by left)). apply elem_of_cons in He as [->|He]; [lia|].
  apply IH; try done; [|lia]. intros; apply Hle; by right.
Qed.

Section tree.
Context (edges : list (nat * nat)).
Local Notation m := (length edges).
Lemma Formed_Cl e v : e < m -> Formed edges e v <-> Cl edges e v.
Proof.
  intros He. destruct (lookup_lt_is_Some_2 edges e He) as [[a b] E]. unfold Formed, Cl, src. rewrite E. simpl. split.
  - intros (a' & b' & E' & H). injection E' as <- <-. exact H.
  - intros H. exists a, b. done.
Qed.
Lemma Meets_iff e (P Q : nat -> Prop) : (forall v, P v <-> Q v) -> Meets edges e P <-> Meets edges e Q.
Proof. intros H. split; intros (a & b & E & HT); exists a, b; (split; [done|]); [rewrite <- !H|rewrite !H]; done. Qed.
Lemma inv_at k : (forall e a b, edges !! e = Some (a, b) -> a <= m /\ b <= m) -> k <= m -> exists s, Inv edges m k s.
Proof.
  intros Hends. induction k as [|k IH]; intros Hk; [eexists; by apply Inv_init|].
  destruct IH as [s I]; [lia|]. destruct (lookup_lt_is_Some_2 edges k) as [[a b] E]; [lia|].
  destruct (Inv_step edges m eq_refl Hends k s a b E I) as (s' & _ & I'). eauto.
Qed.

Lemma single_linkage : 1 <= m -> SpanningTree edges -> exists par, dendrogram edges = Some par /\ SingleLinkage edges par.
Proof.
  intros Hm1 [Hends Hconn]. unfold dendrogram.
  destruct (loop_ok edges m eq_refl Hends edges 0 _ eq_refl ltac:(lia) (Inv_init edges m eq_refl Hends)) as (s & Hrun & I).
  cbn zeta. setoid_rewrite Hrun. clear Hrun. cbn [mbind option_bind].
  set (par0 := d_par s).
  assert (exists par, match m with O => None | S m' => wr par0 m' (Some (-1)%Z) end = Some par /\ par = <[m - 1 := Some (-1)%Z]> par0) as (par & -> & Hpar).
  { destruct (length edges) as [|m'] eqn:El; [lia|]. pose proof (i_parlen _ _ _ _ I) as Hpl. fold par0 in Hpl.
    rewrite wr_Some by lia. replace (S m' - 1) with m' by lia. eauto. }
  exists par. split; [done|].
  pose proof (i_parlen _ _ _ _ I) as Hlen. fold par0 in Hlen.
  assert (length par = m + S m) as Hlen' by (by rewrite Hpar, insert_length).
  assert (par !! (m - 1) = Some (Some (-1)%Z)) as Hroot by (rewrite Hpar; apply list_lookup_insert; lia).
  assert (forall q, q <> m - 1 -> par !! q = par0 !! q) as Hother by (intros; rewrite Hpar; by apply list_lookup_insert_ne).
  assert (forall e, e < m - 1 -> exists e', par !! e = Some (Some (Z.of_nat e')) /\
    e < e' < m /\ Touch edges e' (Cl edges e) /\ forall e'', e < e'' < e' -> ~ Touch edges e'' (Cl edges e)) as HE.
  { intros e He. destruct (lookup_lt_is_Some_2 par0 e) as [p Ep]; [lia|].
    pose proof (i_edge _ _ _ _ I e p ltac:(lia) ltac:(lia) Ep) as Hent. rewrite Hother by lia. rewrite Ep.
    destruct p as [z|].
    - destruct Hent as (e' & -> & H). eauto.
    - exfalso. destruct (lookup_lt_is_Some_2 edges (m - 1)) as [[a b] E]; [lia|].
      destruct (Hends _ _ _ E) as [Ha _].
      apply (Hent (m - 1)); [lia|]. exists a, b. split; [done|]. left. unfold Cl.
      apply EC_stable with (k := m); [lia| |].
      + intros e' He'. apply Hent. lia.
      + apply Hconn; [|done]. unfold src. destruct (lookup_lt_is_Some_2 edges e) as [[a' b'] E']; [lia|].
        rewrite E'. simpl. by apply Hends in E' as [? ?]. }
  assert (forall v, v <= m -> exists e, par !! (m + v) = Some (Some (Z.of_nat e)) /\
    e < m /\ Touch edges e (eq v) /\ forall e', e' < e -> ~ Touch edges e' (eq v)) as HV.
  { intros v Hv. destruct (lookup_lt_is_Some_2 par0 (m + v)) as [p Ep]; [lia|].
    pose proof (i_vertex _ _ _ _ I v p Ep) as Hent. rewrite Hother by lia. rewrite Ep.
    destruct p as [z|].
    - destruct Hent as (e' & -> & H). eauto.
    - exfalso. set (u := if decide (v = 0) then 1 else 0).
      assert (u <= m /\ v <> u) as [Hu Huv] by (unfold u; case_decide; lia).
      pose proof (Hconn v u Hv Hu) as Hc.
      apply (EC_closed edges m (eq v)) in Hc; [by apply Huv, Hc|].
      intros e a b He E. split; intros <-; exfalso; apply (Hent e He); eexists _, _; eauto. }
  constructor.
  - done.
  - done.
  - intros e He. destruct (HE e He) as (e' & H1 & H2 & H3 & H4). exists e'. split; [done|]. split; [done|].
    assert (forall v, Formed edges e v <-> Cl edges e v) as HF by (intros; apply Formed_Cl; lia).
    split; [by apply (Meets_iff e' _ _ HF)|]. intros e'' He'' HM. apply (H4 e'' He''). by apply (Meets_iff e'' _ _ HF).
  - exact HV.
  - intros e v He Hv. rewrite Formed_Cl by done.
    (* the cluster of a parent contains the cluster of its child *)
    assert (forall x y, x < m -> par !! x = Some (Some (Z.of_nat y)) -> x < y < m /\ forall w, Cl edges x w -> Cl edges y w) as Hup.
    { intros x y Hx Hxy. destruct (decide (x = m - 1)) as [->|]; [rewrite Hroot in Hxy; injection Hxy; lia|].
      destruct (HE x ltac:(lia)) as (y' & H1 & H2 & H3 & _). rewrite H1 in Hxy. injection Hxy as Hxy.
      assert (y' = y) as -> by lia. split; [done|]. intros w Hw.
      assert (EC edges (S y) (src edges x) (src edges y)) as Hxy'.
      { apply Touch_src; [lia|]. destruct H3 as (a & b & E & HT). exists a, b. split; [done|].
        destruct HT; [left|right]; eapply EC_mono; [|done| |done]; lia. }
      unfold Cl in *. eapply EC_trans; [apply EC_sym, Hxy'|]. eapply EC_mono; [|done]. lia. }
    assert (forall x e, Ancestor par x e -> x < m -> x < e < m /\ forall w, Cl edges x w -> Cl edges e w) as Hanc.
    { clear e He. intros x e HA. induction HA as [x e H|x y e H HA IH]; intros Hx; [by apply Hup|].
      destruct (Hup x y Hx H) as [Hxy Hw]. destruct (IH ltac:(lia)) as [Hye Hw']. split; [lia|]. auto. }
    destruct (HV v Hv) as (e1 & HV1 & He1 & HV2 & HV3).
    assert (Cl edges e1 v) as Hve1.
    { destruct HV2 as (a & b & E & HT). unfold Cl, src. rewrite E. simpl. destruct HT as [-> | ->]; [apply EC_refl|].
      eapply EC_edge; [|done]. lia. }
    split.
    + intros HA. inversion HA as [x e' H|x y e' H HA']; subst.
      * rewrite HV1 in H. injection H as H. assert (e1 = e) as <- by lia. done.
      * rewrite HV1 in H. injection H as H. assert (e1 = y) as <- by lia. by apply (Hanc e1 e HA' He1).
    + intros Hc.
      (* climbing from a node below e to e *)
      assert (forall d x, e - x = d -> x <= e -> x < m -> Cl edges x v -> x = e \/ Ancestor par x e) as Hclimb.
      { induction d as [d IH] using lt_wf_ind. intros x Hd Hxe Hx Hxv. destruct (decide (x = e)) as [->|Hne]; [by left|]. right.
        destruct (HE x ltac:(lia)) as (y & H1 & H2 & H3 & H4).
        destruct (Nat.le_gt_cases y e) as [Hy|Hy].
        - destruct (Hup x y Hx H1) as [_ Hw].
          destruct (IH (e - y) ltac:(lia) y eq_refl Hy ltac:(lia) (Hw _ Hxv)) as [->|HA]; [by apply anc_parent|by eapply anc_up].
        - exfalso. apply (H4 e ltac:(lia)). apply src_touch with (m := m); [done|lia|]. unfold Cl in *.
          apply EC_stable with (k := S e); [lia| |].
          + intros e' He'. apply H4. lia.
          + eapply EC_trans; [eapply EC_mono; [|exact Hxv]; lia|]. by apply EC_sym. }
      assert (e1 <= e) as Hle.
      { destruct (Nat.le_gt_cases e1 e) as [|Hgt]; [done|]. exfalso. apply (HV3 e Hgt).
        apply (src_touch edges m eq_refl); [done|]. apply EC_sym in Hc.
        apply (EC_closed edges (S e) (eq v)) in Hc; [by apply Hc|].
        intros e' a b He' E. split; intros <-; exfalso; apply (HV3 e'); try lia; eexists _, _; eauto. }
      destruct (Hclimb (e - e1) e1 eq_refl Hle He1 Hve1) as [->|HA]; [by apply anc_parent|by eapply anc_up].
  - intros e He.
    assert (forall e, cnt (Some (Z.of_nat e)) par <= 2) as Hc2.
    { intros e'. rewrite Hpar. pose proof (cnt_insert par0 (m - 1) (Some (Z.of_nat e')) (Some (-1)%Z)) as Hci.
      pose proof (i_count _ _ _ _ I e') as Hco. fold par0 in Hco. unfold count_eq in Hco. unfold cnt in *.
      rewrite (decide_False (P := Some (Z.of_nat e') = _)) in Hci by (intros [=]; lia). case_decide; lia. }
    assert (forall p, p ∈ par -> p = Some (-1)%Z \/ exists e, e < m /\ p = Some (Z.of_nat e)) as Hall.
    { intros p Hp. apply elem_of_list_lookup in Hp as [q Hq]. pose proof (lookup_lt_Some _ _ _ Hq) as Hql.
      destruct (decide (q = m - 1)) as [->|Hn]; [left; congruence|]. right.
      destruct (Nat.lt_ge_cases q m) as [Hqm|Hqm].
      - destruct (HE q ltac:(lia)) as (e' & H1 & H2 & _). exists e'. split; [lia|congruence].
      - destruct (HV (q - m) ltac:(lia)) as (e' & H1 & H2 & _). replace (m + (q - m)) with q in H1 by lia.
        exists e'. split; [lia|congruence]. }
    pose proof (cnt_total m par Hall) as Htot.
    assert (cnt (Some (-1)%Z) par <= 1) as Hneg.
    { rewrite Hpar. pose proof (cnt_insert par0 (m - 1) (Some (-1)%Z) (Some (-1)%Z)) as Hci.
      assert (cnt (Some (-1)%Z) par0 = 0) as H0; [|rewrite H0 in Hci; case_decide; lia].
      unfold cnt.
      destruct (filter (eq (Some (-1)%Z)) par0) as [|p ps] eqn:Ef; [done|]. exfalso.
      assert (p ∈ filter (eq (Some (-1)%Z)) par0) as Hin by (rewrite Ef; left).
      apply elem_of_list_filter in Hin as [<- Hin]. apply elem_of_list_lookup in Hin as [q Hq].
      pose proof (lookup_lt_Some _ _ _ Hq) as Hql.
      destruct (Nat.lt_ge_cases q m) as [Hqm|Hqm].
      - pose proof (i_edge _ _ _ _ I q _ Hqm Hqm Hq) as (e' & ? & _). lia.
      - replace q with (m + (q - m)) in Hq by lia. pose proof (i_vertex _ _ _ _ I _ _ Hq) as (e' & ? & _). lia. }
    apply (sum_tight (fun e => cnt (Some (Z.of_nat e)) par) (seq 0 m)); [by intros| |apply elem_of_seq; lia].
    rewrite seq_length. lia.
Qed.
End tree.

(** The dendrogram of every spanning tree (in the order in which its edges are processed) is its single-linkage
    dendrogram, and no access is out of bounds. *)
Theorem C29_single_linkage : forall edges, edges <> [] -> SpanningTree edges ->
  exists par, dendrogram edges = Some par /\ SingleLinkage edges par.
Proof. intros edges Hne HT. apply single_linkage; [|done]. destruct edges; [done|simpl; lia]. Qed.

(** The clusters at every height: for any spanning tree with weights, and any order of its edges by weight (ties broken
    arbitrarily, as by the unstable key sort), two vertices are connected by edges of weight at most [h] iff they are the
    same vertex or lie below a common dendrogram node of height at most [h]. *)
Theorem C29_cut : forall (W : Type) (leb : W -> W -> bool),
  (forall a b c, leb a b = true -> leb b c = true -> leb a c = true) ->
  forall tree sorted : list (W * (nat * nat)), tree <> [] -> Permutation tree sorted ->
  StronglySorted (fun x y => leb (fst x) (fst y) = true) sorted ->
  SpanningTree (snd <$> sorted) ->
  exists par, dendrogram (snd <$> sorted) = Some par /\
    (* heights do not decrease towards the root *)
    (forall e e' w w', par !! e = Some (Some (Z.of_nat e')) -> (fst <$> sorted) !! e = Some w -> (fst <$> sorted) !! e' = Some w' -> leb w w' = true) /\
    forall h u v, u <= length tree -> v <= length tree ->
      Conn (fun a b => exists w, (w, (a, b)) ∈ tree /\ leb w h = true) u v <->
      u = v \/ exists e w, (fst <$> sorted) !! e = Some w /\ leb w h = true /\
                 Ancestor par (length tree + u) e /\ Ancestor par (length tree + v) e.
Proof.
  intros W leb Htr tree sorted Hne Hperm Hsort HT.
  set (edges := snd <$> sorted) in *.
  assert (length edges = length tree) as Hlen by (unfold edges; rewrite fmap_length; symmetry; by apply Permutation_length).
  assert (edges <> []) as Hne'. { intros He. rewrite He in Hlen. destruct tree; done. }
  destruct (C29_single_linkage edges Hne' HT) as (par & Hrun & SL).
  exists par. split; [done|].
  assert (forall e e' w w', e < e' -> (fst <$> sorted) !! e = Some w -> (fst <$> sorted) !! e' = Some w' -> leb w w' = true) as Hmono.
  { clear -Hsort. induction Hsort as [|[w0 ab] l Hs IH Hall]; intros e e' w w' Hlt E E'; [done|].
    destruct e' as [|e']; [lia|]. csimpl in *. destruct e as [|e].
    - injection E as <-. apply list_lookup_fmap_Some in E' as (x & Hx & ->). rewrite Forall_lookup in Hall. by apply (Hall _ _ Hx).
    - apply (IH e e'); try done. lia. }
  destruct HT as [Hends Hconn].
  assert (forall e, e < length edges -> exists w a b, sorted !! e = Some (w, (a, b)) /\ edges !! e = Some (a, b) /\ (fst <$> sorted) !! e = Some w) as Hlook.
  { intros e He. unfold edges in *. rewrite fmap_length in He. destruct (lookup_lt_is_Some_2 sorted e He) as [[w [a b]] E].
    exists w, a, b. rewrite !list_lookup_fmap, E. done. }
  split.
  { intros e e' w w' Hp E E'. assert (e < length edges) as He.
    { apply lookup_lt_Some in E. rewrite fmap_length in E. unfold edges. by rewrite fmap_length. }
    destruct (decide (e = length edges - 1)) as [->|]; [rewrite (sl_root _ _ SL) in Hp; injection Hp; lia|].
    destruct (sl_edge _ _ SL e ltac:(lia)) as (e'' & Hp' & Hlt & _). rewrite Hp in Hp'. injection Hp' as Heq.
    apply (Hmono e e'); try done. lia. }
  intros h u v Hu Hv. rewrite <- Hlen in *.
  (* the edges up to height h are a prefix *)
  assert (exists k, k <= length edges /\ forall e w, (fst <$> sorted) !! e = Some w -> leb w h = true <-> e < k) as (k & Hk & Hpre).
  { unfold edges. rewrite fmap_length. clear -Hsort Htr. induction Hsort as [|[w0 ab] l Hs (k & Hk & IH) Hall]; [exists 0; split; [done|]; intros e w He; done|].
    destruct (leb w0 h) eqn:Eh.
    - exists (S k). split; [simpl; lia|]. intros [|e] w E; csimpl in *; [injection E as <-; split; [lia|done]|].
      rewrite (IH e w E). lia.
    - exists 0. split; [lia|]. intros [|e] w E; csimpl in *; [injection E as <-; rewrite Eh; split; [done|lia]|].
      split; [|lia]. intros Hw. apply list_lookup_fmap_Some in E as (x & Hx & ->). rewrite Forall_lookup in Hall.
      specialize (Hall _ _ Hx). simpl in Hall. rewrite (Htr _ _ _ Hall Hw) in Eh. done. }
  assert (forall a b, (exists w, (w, (a, b)) ∈ tree /\ leb w h = true) <-> exists e, e < k /\ edges !! e = Some (a, b)) as HR.
  { intros a b. split.
    - intros (w & Hin & Hw). rewrite Hperm in Hin. apply elem_of_list_lookup in Hin as [e E]. exists e.
      split; [apply (Hpre e w); [by rewrite list_lookup_fmap, E|done]|]. unfold edges. by rewrite list_lookup_fmap, E.
    - intros (e & He & E). destruct (Hlook e ltac:(lia)) as (w & a' & b' & E1 & E2 & E3). rewrite E in E2. injection E2 as <- <-.
      exists w. split; [rewrite Hperm; by eapply elem_of_list_lookup_2|]. by apply (Hpre e w). }
  assert (forall x y, Conn (fun a b => exists w, (w, (a, b)) ∈ tree /\ leb w h = true) x y <-> Within edges k x y) as HC.
  { intros x y. split; intros H; (induction H as [a b H| | |]; [apply rst_step; by apply HR|apply rst_refl|by apply rst_sym|by eapply rst_trans]). }
  rewrite HC. split.
  - intros Huv. destruct (inv_at edges k Hends Hk) as [s I].
    pose proof (i_ok _ _ _ _ I) as Hok. set (r := root (d_labels s) u).
    assert (r <= length edges) as Hr by (pose proof (root_le (d_labels s) u); unfold r; lia).
    assert (EC edges k u r) as Hur. { apply (i_root _ _ _ _ I); [done|done|]. unfold r. by rewrite (root_root _ _ u Hok). }
    pose proof (i_set _ _ _ _ I r Hr (root_lab _ _ u Hok)) as Hset.
    destruct (d_set s !! r) as [[c|]|]; [| |done].
    + right. assert (c < k) as Hc by apply Hset. destruct (Hlook c ltac:(lia)) as (w & a & b & E1 & E2 & E3).
      exists c, w. split; [done|]. split; [by apply (Hpre c w)|].
      rewrite !(sl_below _ _ SL) by lia. rewrite !Formed_Cl by lia. rewrite <- !(LastTouch_Cl edges k r c) by done.
      split; [by apply EC_sym|]. eapply EC_trans; [by apply EC_sym|done].
    + left. assert (forall y, EC edges k r y -> r = y) as Hal.
      { intros y Hy. apply (EC_closed edges k (eq r)) in Hy; [by apply Hy|].
        intros e a b He E. split; intros <-; exfalso; apply (Hset e He); eexists _, _; (split; [exact E|]); [left|right]; apply EC_refl. }
      rewrite <- (Hal u) by (by apply EC_sym). apply Hal. eapply EC_trans; [by apply EC_sym|done].
  - intros [->|(e & w & E & Hw & H1 & H2)]; [apply rst_refl|].
    assert (e < length edges) as He by (apply lookup_lt_Some in E; rewrite fmap_length in E; unfold edges; by rewrite fmap_length).
    apply (sl_below _ _ SL) in H1, H2; try lia. rewrite Formed_Cl in H1, H2 by done. apply (Hpre e w E) in Hw.
    change (EC edges k u v). unfold Cl in *. eapply EC_mono with (k := S e); [lia|]. eapply EC_trans; [apply EC_sym; done|done].
Qed.

Theorem C54_single_point_refuted : exists edges, dendrogram edges = None /\ SpanningTree edges.
Proof.
  exists []. split; [reflexivity|]. split; [done|]. simpl. intros u v Hu Hv.
  assert (u = 0) as -> by lia. assert (v = 0) as -> by lia. apply rst_refl.
Qed.

(** Six vertices, a tie, and an order of processing that is not the order of the vertices. *)
Definition ex_tree : list (nat * nat) := [(4, 5); (0, 2); (3, 4); (2, 1); (5, 0)].
Example C29_example : dendrogram ex_tree = Some (Some <$> [2; 3; 4; 4; -1; 1; 3; 1; 2; 0; 0]%Z).
Proof. reflexivity. Qed.
Example C29_example_tree : SpanningTree ex_tree.
Proof.
  split.
  - intros e a b H. apply elem_of_list_lookup_2 in H. unfold ex_tree in H. simpl.
    repeat (apply elem_of_cons in H as [[= -> ->]|H]; [lia|]). by apply elem_of_nil in H.
  - assert (forall e a b, ex_tree !! e = Some (a, b) -> e < 5 -> Within ex_tree 5 a b) as Hs by (intros; apply rst_step; eauto).
    assert (Within ex_tree 5 4 5) as H1 by (apply (Hs 0); [done|lia]).
    assert (Within ex_tree 5 0 2) as H2 by (apply (Hs 1); [done|lia]).
    assert (Within ex_tree 5 3 4) as H3 by (apply (Hs 2); [done|lia]).
    assert (Within ex_tree 5 2 1) as H4 by (apply (Hs 3); [done|lia]).
    assert (Within ex_tree 5 5 0) as H5 by (apply (Hs 4); [done|lia]).
    assert (forall u, u <= 5 -> Within ex_tree 5 0 u) as H0.
    { intros u Hu. assert (u = 0 \/ u = 1 \/ u = 2 \/ u = 3 \/ u = 4 \/ u = 5) as Hc by lia.
      unfold Within, Conn in *.
      destruct Hc as [->|[->|[->|[->|[->| ->]]]]]; eauto 6 using rst_refl, rst_sym, rst_trans. }
    intros u v Hu Hv. simpl in *. eapply rst_trans; [apply rst_sym|]; by apply H0.
Qed.
Definition ex_sorted : list (nat * (nat * nat)) := [(1, (4, 5)); (1, (0, 2)); (2, (3, 4)); (3, (2, 1)); (5, (5, 0))].
Example C29_example_sorted : StronglySorted (fun x y => Nat.leb (fst x) (fst y) = true) ex_sorted /\ (snd <$> ex_sorted) = ex_tree.
Proof. split; [|done]. repeat (apply SSorted_cons || apply SSorted_nil); repeat constructor. Qed.
Print Assumptions C29_single_linkage.
Print Assumptions C29_cut.
Print Assumptions C54_single_point_refuted.
