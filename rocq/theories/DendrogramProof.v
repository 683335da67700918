(** Proofs about the host dendrogram construction: the sequential union-find and the loop over the edges. *)
From Verif Require Export DendrogramModel UnionFindSpec UnionFindProof.
Local Open Scope nat_scope.

(** ** Sequential representative and merge *)
Definition LOk (n : nat) (l : list nat) : Prop := length l = n /\ forall x, lab l x <= x.
Lemma lab_lookup l x : x < length l -> l !! x = Some (lab l x).
Proof. intros H. unfold lab. destruct (l !! x) eqn:E; [done|]. apply lookup_ge_None in E. lia. Qed.

Lemma rep_loop_ok n : forall fuel l prev curr, LOk n l -> prev < n -> curr < prev -> curr < fuel -> root l curr = root l prev ->
  exists l', rep_loop fuel l prev curr = Some (l', root l prev) /\ LOk n l' /\ forall x, root l' x = root l x.
Proof.
  induction fuel as [|fuel IH]; intros l prev curr [Hl Hle] Hp Hc Hf HR; [lia|].
  simpl. rewrite lab_lookup by lia. simpl. pose proof (Hle curr) as Hcl.
  destruct (Nat.ltb_spec (lab l curr) curr) as [Hlt|Hge].
  - rewrite wr_Some by lia. simpl.
    assert (forall x, root (<[prev:=lab l curr]> l) x = root l x) as HRR.
    { apply root_compress; try lia.
      - destruct (Nat.lt_ge_cases (lab l prev) prev) as [|Hbad]; [done|].
        rewrite (root_ge l prev Hbad) in HR. pose proof (root_le l curr). lia.
      - rewrite <- root_lt by done. done. }
    destruct (IH (<[prev:=lab l curr]> l) curr (lab l curr)) as (l' & E & Hok & HR').
    + split; [by rewrite insert_length|]. intros x. rewrite lab_insert by lia. case_decide; subst; [lia|apply Hle].
    + lia. + done. + lia.
    + rewrite !HRR. by rewrite <- root_lt.
    + exists l'. rewrite E, HRR, HR. split; [done|]. split; [done|]. intros x. by rewrite HR', HRR.
  - exists l. rewrite <- HR, root_ge by lia. done.
Qed.
Lemma representative_ok n l i : LOk n l -> i < n ->
  exists l', representative l i = Some (l', root l i) /\ LOk n l' /\ forall x, root l' x = root l x.
Proof.
  intros Hok Hi. destruct Hok as [Hl Hle]. unfold representative. rewrite lab_lookup by lia. cbn [mbind option_bind].
  destruct (Nat.eqb_spec (lab l i) i) as [E|E].
  - exists l. rewrite root_ge by lia. rewrite E. done.
  - pose proof (Hle i). apply rep_loop_ok with (n := n); try done; try lia. rewrite <- root_lt by lia. done.
Qed.
Lemma root_lab n l x : LOk n l -> lab l (root l x) = root l x.
Proof.
  intros [Hl Hle]. induction x as [x IH] using lt_wf_ind. rewrite (root_unfold l x).
  destruct (Nat.ltb_spec (lab l x) x) as [H|H]; [by apply IH|]. pose proof (Hle x). lia.
Qed.
Lemma root_root n l x : LOk n l -> root l (root l x) = root l x.
Proof. intros H. apply root_ge. by rewrite (root_lab n). Qed.
Lemma merge_serial_ok n l i j : LOk n l -> i < n -> j < n ->
  exists l', merge_serial l i j = Some l' /\ LOk n l' /\
    forall x, root l' x = if decide (root l x = root l i \/ root l x = root l j) then Nat.min (root l i) (root l j) else root l x.
Proof.
  intros Hok Hi Hj. unfold merge_serial.
  destruct (representative_ok n l i Hok Hi) as (l1 & -> & Hok1 & HR1). simpl.
  destruct (representative_ok n l1 j Hok1 Hj) as (l2 & -> & Hok2 & HR2). simpl. rewrite HR1.
  assert (forall x, root l2 x = root l x) as HR by (intros; by rewrite HR2).
  set (v := root l i). set (o := root l j).
  assert (v < n /\ o < n) as [Hv Ho] by (pose proof (root_le l i); pose proof (root_le l j); unfold v, o; lia).
  assert (lab l2 v = v) as Lv by (unfold v; rewrite <- HR; by apply (root_lab n)).
  assert (lab l2 o = o) as Lo by (unfold o; rewrite <- HR; by apply (root_lab n)).
  assert (Ho2 := Hok2). destruct Ho2 as [Hl2 Hle2].
  destruct (Nat.ltb_spec v o) as [Hlt|Hge].
  - rewrite wr_Some by lia. eexists. split; [done|]. split.
    + split; [by rewrite insert_length|]. intros x. rewrite lab_insert by lia. case_decide; subst; [lia|apply Hle2].
    + intros x. rewrite root_link by (done || lia). rewrite (root_ge l2 v) by lia. rewrite HR.
      repeat case_decide; try lia; try tauto.
  - rewrite wr_Some by lia. destruct (decide (v = o)) as [Evo|Nvo].
    + assert (<[v:=o]> l2 = l2) as ->. { apply list_insert_id. rewrite lab_lookup by lia. congruence. }
      eexists. split; [done|]. split; [done|]. intros x. rewrite HR. case_decide; lia.
    + eexists. split; [done|]. split.
      * split; [by rewrite insert_length|]. intros x. rewrite lab_insert by lia. case_decide; subst; [lia|apply Hle2].
      * intros x. rewrite root_link by (done || lia). rewrite (root_ge l2 o) by lia. rewrite HR.
        repeat case_decide; try lia; try tauto.
Qed.

(** ** Specification-level clusters *)
Section dendro.
Context (edges : list (nat * nat)).
Definition EC (k : nat) : nat -> nat -> Prop := Conn (fun a b => exists e, e < k /\ edges !! e = Some (a, b)).
(** edge [e] has an endpoint in [P] *)
Definition Touch (e : nat) (P : nat -> Prop) : Prop := exists a b, edges !! e = Some (a, b) /\ (P a \/ P b).

Lemma EC_refl k x : EC k x x. Proof. apply rst_refl. Qed.
Lemma EC_sym k x y : EC k x y -> EC k y x. Proof. apply rst_sym. Qed.
Lemma EC_trans k x y z : EC k x y -> EC k y z -> EC k x z. Proof. apply rst_trans. Qed.
Lemma EC_edge k e a b : e < k -> edges !! e = Some (a, b) -> EC k a b.
Proof. intros. apply rst_step. eauto. Qed.
Lemma EC_mono k k' x y : k <= k' -> EC k x y -> EC k' x y.
Proof.
  intros Hk H. induction H as [a b (e & He & E)| | |].
  - eapply EC_edge; [|done]. lia.
  - apply EC_refl. - by apply EC_sym. - by eapply EC_trans.
Qed.
(** A set closed under the edges is closed under connection. *)
Lemma EC_closed k (P : nat -> Prop) : (forall e a b, e < k -> edges !! e = Some (a, b) -> P a <-> P b) ->
  forall x y, EC k x y -> P x <-> P y.
Proof.
  intros Hc x y H. induction H as [a b (e & He & E)| | |]; try tauto. by eapply Hc.
Qed.
(** If no edge in [s, k) touches the cluster of [x] at time s, that cluster is the same at time k. *)
Lemma EC_stable s k x y : s <= k -> (forall e, s <= e < k -> ~ Touch e (EC s x)) -> EC k x y -> EC s x y.
Proof.
  intros Hs Hn H. apply (EC_closed k (EC s x)) with (x := x) (y := y); [|done|apply EC_refl].
  intros e a b He E. destruct (Nat.lt_ge_cases e s).
  - split; intros H'; (eapply EC_trans; [done|]); [|apply EC_sym]; by eapply EC_edge.
  - split; intros H'; exfalso; apply (Hn e); try lia; exists a, b; auto.
Qed.
(** The same, with the cluster at time k untouched. *)
Lemma EC_stable' s k x y : s <= k -> (forall e, s <= e < k -> ~ Touch e (EC k x)) -> EC k x y -> EC s x y.
Proof.
  intros Hs Hn H. apply EC_stable with (k := k); try done. intros e He (a & b & E & HT).
  apply (Hn e He). exists a, b. split; [done|]. destruct HT; [left|right]; by eapply EC_mono.
Qed.
Lemma EC_step k a b x y : edges !! k = Some (a, b) ->
  EC (S k) x y <-> EC k x y \/ (EC k x a /\ EC k b y) \/ (EC k x b /\ EC k a y).
Proof.
  intros E. split.
  - intros H. induction H as [u v (e & He & E')| |u v H IH|u v w H1 IH1 H2 IH2].
    + destruct (decide (e = k)) as [->|]; [|left; eapply EC_edge; [|done]; lia].
      rewrite E in E'. injection E' as -> ->. right; left. split; apply EC_refl.
    + left. apply EC_refl.
    + destruct IH as [IH|[[]|[]]]; [left; by apply EC_sym| |]; right; [right|left]; split; by apply EC_sym.
    + assert (forall p q r, EC k p q -> EC k r q -> EC k p r) as T1 by (intros; eapply EC_trans; [done|]; by apply EC_sym).
      destruct IH1 as [IH1|[[]|[]]], IH2 as [IH2|[[]|[]]]; eauto 7 using EC_trans, EC_sym.
  - assert (EC (S k) a b) as Hab by (eapply EC_edge; [|done]; lia).
    intros [H|[[H1 H2]|[H1 H2]]].
    + eapply EC_mono; [|done]; lia.
    + eapply EC_trans; [eapply EC_mono; [|done]; lia|]. eapply EC_trans; [done|]. eapply EC_mono; [|done]; lia.
    + eapply EC_trans; [eapply EC_mono; [|done]; lia|]. eapply EC_trans; [apply EC_sym, Hab|]. eapply EC_mono; [|done]; lia.
Qed.

Definition src (e : nat) : nat := from_option fst 0 (edges !! e).
(** the cluster formed by edge [e] *)
Definition Cl (e : nat) : nat -> Prop := EC (S e) (src e).
Lemma Touch_src k e x : e < k -> Touch e (EC k x) -> EC k x (src e).
Proof.
  intros He (a & b & E & HT). unfold src. rewrite E. simpl. destruct HT as [H|H]; [done|].
  eapply EC_trans; [done|]. apply EC_sym. by eapply EC_edge.
Qed.

Definition LastTouch (k r c : nat) : Prop := c < k /\ Touch c (EC k r) /\ forall e, c < e < k -> ~ Touch e (EC k r).
Lemma LastTouch_unique k r c c' : LastTouch k r c -> LastTouch k r c' -> c = c'.
Proof.
  intros (H1 & H2 & H3) (H1' & H2' & H3'). destruct (Nat.lt_trichotomy c c') as [|[|]]; [|done|].
  - exfalso. by apply (H3 c'). - exfalso. by apply (H3' c).
Qed.
Lemma LastTouch_ext k r r' c : EC k r r' -> LastTouch k r c -> LastTouch k r' c.
Proof.
  intros H (H1 & H2 & H3).
  assert (forall e, Touch e (EC k r) <-> Touch e (EC k r')) as HT.
  { intros e. split; intros (a & b & E & HH); exists a, b; (split; [done|]); destruct HH; [left|right|left|right];
      (eapply EC_trans; [|done]); (done || by apply EC_sym). }
  split; [done|]. split; [by apply HT|]. intros e He HH. apply (H3 e He). by apply HT.
Qed.
(** The cluster formed by the last edge touching the cluster of [r] is the whole cluster of [r]. *)
Lemma LastTouch_Cl k r c y : LastTouch k r c -> EC k r y <-> Cl c y.
Proof.
  intros (H1 & H2 & H3). pose proof (Touch_src _ _ _ H1 H2) as Hs. unfold Cl. split.
  - intros H. apply EC_stable' with (k := k); [lia| |eapply EC_trans; [apply EC_sym, Hs|done]].
    intros e He (a & b & E & HT). apply (H3 e); [lia|]. exists a, b. split; [done|].
    destruct HT; [left|right]; (eapply EC_trans; [exact Hs|done]).
  - intros H. eapply EC_trans; [exact Hs|]. eapply EC_mono; [|done]. lia.
Qed.

Context (m : nat) (Hm : length edges = m).
Lemma src_touch e (P : nat -> Prop) : e < m -> P (src e) -> Touch e P.
Proof. intros He HP. destruct (lookup_lt_is_Some_2 edges e) as [[a b] E]; [lia|]. unfold src in HP. rewrite E in HP. exists a, b. auto. Qed.
Context (Hends : forall e a b, edges !! e = Some (a, b) -> a <= m /\ b <= m).

(** What the parents array must contain after [k] edges. *)
Definition EdgeEntry (k e : nat) (p : option Z) : Prop :=
  match p with
  | None => forall e', e < e' < k -> ~ Touch e' (Cl e)
  | Some z => exists e', z = Z.of_nat e' /\ e < e' < k /\ Touch e' (Cl e) /\ forall e'', e < e'' < e' -> ~ Touch e'' (Cl e)
  end.
Definition VertexEntry (k v : nat) (p : option Z) : Prop :=
  match p with
  | None => forall e, e < k -> ~ Touch e (eq v)
  | Some z => exists e, z = Z.of_nat e /\ e < k /\ Touch e (eq v) /\ forall e', e' < e -> ~ Touch e' (eq v)
  end.
Definition count_eq (par : list (option Z)) (e : nat) : nat := length (filter (eq (Some (Z.of_nat e))) par).

Record Inv (k : nat) (s : dstate) : Prop := {
  i_ok : LOk (S m) (d_labels s);
  i_root : forall u v, u <= m -> v <= m -> root (d_labels s) u = root (d_labels s) v <-> EC k u v;
  i_setlen : length (d_set s) = S m;
  i_set : forall r, r <= m -> lab (d_labels s) r = r ->
    match d_set s !! r with Some (Some c) => LastTouch k r c | Some None => forall e, e < k -> ~ Touch e (EC k r) | None => False end;
  i_parlen : length (d_par s) = m + S m;
  i_edge : forall e p, e < k -> e < m -> d_par s !! e = Some p -> EdgeEntry k e p;
  i_edge_later : forall e, k <= e -> e < m -> d_par s !! e = Some None;
  i_vertex : forall v p, d_par s !! (m + v) = Some p -> VertexEntry k v p;
  i_count : forall e, count_eq (d_par s) e <= if decide (e < k) then 2 else 0;
}.

Lemma Inv_init : Inv 0 (DState (seq 0 (S m)) (replicate (S m) None) (replicate (m + S m) None)).
Proof.
  constructor; cbn [d_labels d_set d_par].
  - split; [apply seq_length|]. intros x. by rewrite lab_seq.
  - intros u v _ _. rewrite !root_seq. split; [intros ->; apply EC_refl|]. intros H.
    apply (EC_closed 0 (eq u)) in H; [by apply H|]. intros; lia.
  - apply replicate_length.
  - intros r Hr _. rewrite lookup_replicate_2 by lia. intros; lia.
  - apply replicate_length.
  - intros; lia.
  - intros e _ He. apply lookup_replicate_2. lia.
  - intros v p H. apply lookup_replicate in H as [-> _]. simpl. intros; lia.
  - intros e. unfold count_eq. case_decide; [lia|]. generalize (m + S m). intros q. induction q as [|q IH]; [done|].
    cbn [replicate]. rewrite filter_cons_False; [done|congruence].
Qed.

(** The entry written for representative [r]: the index in [parents] of the node standing for the cluster of [r]. *)
Definition node (set : list (option nat)) (r : nat) : nat :=
  match set !! r with Some (Some c) => c | _ => m + r end.
Lemma count_insert par q e e' : q < length par ->
  count_eq (<[q:=Some (Z.of_nat e')]> par) e <= count_eq par e + if decide (e = e') then 1 else 0.
Proof.
  unfold count_eq. revert q. induction par as [|p par IH]; intros q Hq; simpl in Hq; [lia|].
  destruct q as [|q]; csimpl.
  - rewrite !filter_cons. repeat case_decide; simpl; try lia; simplify_eq; try lia.
  - specialize (IH q ltac:(lia)). rewrite !filter_cons. repeat case_decide; simpl; lia.
Qed.

Lemma Inv_step k s a b : edges !! k = Some (a, b) -> Inv k s ->
  exists s', dendro_step m k (a, b) s = Some s' /\ Inv (S k) s'.
Proof.
  intros E I. assert (k < m) as Hk by (rewrite <- Hm; by eapply lookup_lt_Some).
  destruct (Hends _ _ _ E) as [Ha Hb]. unfold dendro_step. simpl fst. simpl snd.
  destruct (representative_ok (S m) (d_labels s) a) as (l1 & -> & Hok1 & HR1); [apply I|lia|]. simpl.
  destruct (representative_ok (S m) l1 b) as (l2 & -> & Hok2 & HR2); [done|lia|]. simpl.
  rewrite HR1. set (l := d_labels s) in *. set (i := root l a). set (j := root l b).
  assert (forall x, root l2 x = root l x) as HRl2 by (intros; by rewrite HR2, HR1).
  assert (i <= m) as Hi by (pose proof (root_le l a); unfold i; lia).
  assert (j <= m) as Hj by (pose proof (root_le l b); unfold j; lia).
  pose proof (i_ok _ _ I) as Hok. fold l in Hok.
  pose proof (root_root _ _ a Hok) as Rii. fold i in Rii. pose proof (root_root _ _ b Hok) as Rjj. fold j in Rjj.
  pose proof (root_lab _ _ a Hok) as Li. fold i in Li. pose proof (root_lab _ _ b Hok) as Lj. fold j in Lj.
  assert (EC k a i) as Cai by (apply (i_root _ _ I); fold l; [lia|lia|]; by rewrite Rii).
  assert (EC k b j) as Cbj by (apply (i_root _ _ I); fold l; [lia|lia|]; by rewrite Rjj).
  (* the node standing for a representative, and what is known about it *)
  assert (forall r, r <= m -> lab l r = r -> node (d_set s) r < m + S m /\
     (forall par, length par = m + S m -> assign_parent m (d_set s) par k r = Some (<[node (d_set s) r := Some (Z.of_nat k)]> par)) /\
     ((node (d_set s) r < k /\ LastTouch k r (node (d_set s) r)) \/
      (node (d_set s) r = m + r /\ (forall e, e < k -> ~ Touch e (EC k r))))) as Hnode.
  { intros r Hr Hlr. pose proof (i_set _ _ I r Hr Hlr) as Hset. unfold node, assign_parent.
    destruct (d_set s !! r) as [[c|]|]; [| |done]; simpl.
    - assert (c < k) as Hc by apply Hset. split; [lia|]. split; [|by left]. intros par Hpar. rewrite wr_Some by lia. done.
    - split; [lia|]. split; [|by right]. intros par Hpar. rewrite wr_Some by lia. done. }
  destruct (Hnode i Hi Li) as (Hni & Wi & Ki). destruct (Hnode j Hj Lj) as (Hnj & Wj & Kj).
  rewrite (Wi (d_par s)) by apply I. simpl. rewrite Wj by (rewrite insert_length; apply I). simpl.
  set (ni := node (d_set s) i) in *. set (nj := node (d_set s) j) in *.
  destruct (merge_serial_ok (S m) l2 i j Hok2) as (l3 & -> & Hok3 & HR3); [lia|lia|]. simpl.
  rewrite !HRl2 in HR3. rewrite Rii, Rjj in HR3.
  destruct (representative_ok (S m) l3 i Hok3) as (l4 & -> & Hok4 & HR4); [lia|]. simpl.
  assert (root l3 i = Nat.min i j) as Hri. { rewrite HR3, HRl2, Rii. case_decide; tauto. }
  rewrite Hri. rewrite wr_Some by (rewrite (i_setlen _ _ I); lia). simpl.
  set (par' := <[nj:=Some (Z.of_nat k)]> (<[ni:=Some (Z.of_nat k)]> (d_par s))).
  eexists. split; [done|].
  assert (forall x, root l4 x = if decide (root l x = i \/ root l x = j) then Nat.min i j else root l x) as HR.
  { intros x. rewrite HR4, HR3, HRl2. done. }
  assert (forall u, u <= m -> root l u = i <-> EC k u a) as Ria.
  { intros u Hu. unfold i. apply (i_root _ _ I); fold l; lia. }
  assert (forall u, u <= m -> root l u = j <-> EC k u b) as Rjb.
  { intros u Hu. unfold j. apply (i_root _ _ I); fold l; lia. }
  (* a cluster contains an endpoint of k iff its root is i or j *)
  assert (forall x, x <= m -> (Touch k (EC k x) <-> EC k x a \/ EC k x b)) as Htk.
  { intros x Hx. split.
    - intros (a' & b' & E' & HT). rewrite E in E'. injection E' as <- <-. tauto.
    - intros HT. exists a, b. tauto. }
  (* entries of par' *)
  assert (forall q, q < m + S m -> par' !! q = if decide (q = ni \/ q = nj) then Some (Some (Z.of_nat k)) else d_par s !! q) as Hpar'.
  { intros q Hq. unfold par'. destruct (decide (q = nj)) as [->|Nj].
    - rewrite list_lookup_insert by (rewrite insert_length, (i_parlen _ _ I); lia). case_decide; [done|tauto].
    - rewrite list_lookup_insert_ne by done. destruct (decide (q = ni)) as [->|Ni].
      + rewrite list_lookup_insert by (rewrite (i_parlen _ _ I); lia). case_decide; [done|tauto].
      + rewrite list_lookup_insert_ne by done. case_decide; [tauto|done]. }
  assert (forall r x, (r = i /\ x = a) \/ (r = j /\ x = b) -> EC k x r /\ (x = a \/ x = b)) as Hrx.
  { intros r x [[-> ->]|[-> ->]]; auto. }
  constructor; cbn [d_labels d_set d_par].
  - done.
  - intros u v Hu Hv. rewrite !HR, (EC_step k a b u v E).
    pose proof (Ria u Hu). pose proof (Rjb u Hu). pose proof (Ria v Hv). pose proof (Rjb v Hv).
    pose proof (i_root _ _ I u v Hu Hv) as Huv. fold l in Huv.
    assert (forall x y, EC k x y <-> EC k y x) as Hsym by (intros; split; apply EC_sym).
    rewrite (Hsym b v), (Hsym a v).
    assert (Nat.min i j = i \/ Nat.min i j = j) as Hmin by lia.
    destruct (decide (root l u = i \/ root l u = j)) as [Du|Du], (decide (root l v = i \/ root l v = j)) as [Dv|Dv];
      split; intros HH; try tauto; try done.
    + destruct (decide (root l u = root l v)); [tauto|]. right.
      destruct Du as [Du|Du], Dv as [Dv|Dv]; try congruence; tauto.
    + exfalso. destruct Hmin as [Em|Em]; rewrite Em in HH; symmetry in HH; tauto.
    + exfalso. destruct HH as [HH|HH]; [|tauto]. apply Huv in HH. rewrite HH in *. tauto.
    + exfalso. destruct Hmin as [Em|Em]; rewrite Em in HH; tauto.
    + exfalso. destruct HH as [HH|HH]; [|tauto]. apply Huv in HH. rewrite <- HH in *. tauto.
  - rewrite insert_length. apply I.
  - intros r Hr Hlr. assert (root l4 r = r) as Hrr by (apply root_ge; lia).
    destruct (decide (r = Nat.min i j)) as [->|Hrn].
    + rewrite list_lookup_insert by (rewrite (i_setlen _ _ I); lia).
      split; [lia|]. split; [|intros; lia]. exists a, b. split; [done|].
      destruct (Nat.le_ge_cases i j); [left; rewrite Nat.min_l by done|right; rewrite Nat.min_r by done];
        (eapply EC_mono; [|apply EC_sym; done]; lia).
    + rewrite list_lookup_insert_ne by done.
      rewrite HR in Hrr. case_decide as Hd; [congruence|].
      assert (lab l r = r) as Hl0. { rewrite <- Hrr. by apply (root_lab (S m)). }
      pose proof (i_set _ _ I r Hr Hl0) as Hset. rewrite Ria, Rjb in Hd by done.
      assert (forall y, EC (S k) r y <-> EC k r y) as Hsame.
      { intros y. rewrite (EC_step k a b r y E). tauto. }
      assert (forall e, Touch e (EC (S k) r) <-> Touch e (EC k r)) as HsameT.
      { intros e. split; intros (a' & b' & E' & HT); exists a', b'; rewrite !Hsame in *; done. }
      assert (~ Touch k (EC (S k) r)) as HnT by (rewrite HsameT, Htk by done; done).
      destruct (d_set s !! r) as [[c|]|]; [| |done].
      * destruct Hset as (H1 & H2 & H3). split; [lia|]. split; [by apply HsameT|].
        intros e He HT. destruct (decide (e = k)) as [->|]; [done|]. apply (H3 e); [lia|]. by apply HsameT.
      * intros e He HT. destruct (decide (e = k)) as [->|]; [done|]. apply (Hset e); [lia|]. by apply HsameT.
  - unfold par'. rewrite !insert_length. apply I.
  - intros e p He Hem Hp. rewrite Hpar' in Hp by lia.
    assert (forall r x, (r = i /\ x = a) \/ (r = j /\ x = b) -> e = node (d_set s) r -> Some (Some (Z.of_nat k)) = Some p -> EdgeEntry (S k) e p) as Hwritten.
    { intros r x Hc -> Hp'. injection Hp' as <-. destruct (Hrx r x Hc) as [Hxr Hxab].
      assert (r <= m /\ lab l r = r) as [Hr Hlr] by (destruct Hc as [[-> _]|[-> _]]; done).
      destruct (Hnode r Hr Hlr) as (_ & _ & [[Hlt Hlast]|[Heq _]]); [|lia].
      exists k. split; [done|]. split; [lia|]. split.
      - exists a, b. split; [done|]. rewrite <- !(LastTouch_Cl k r) by done.
        destruct Hxab as [->| ->]; [left|right]; by apply EC_sym.
      - intros e'' He'' (a' & b' & E' & HT). rewrite <- !(LastTouch_Cl k r) in HT by done.
        destruct Hlast as (_ & _ & HH). apply (HH e''); [lia|]. exists a', b'. done. }
    case_decide as Hd.
    + destruct Hd as [Hd|Hd]; [apply (Hwritten i a)|apply (Hwritten j b)]; auto.
    + destruct (decide (e = k)) as [->|Hek].
      * rewrite (i_edge_later _ _ I k) in Hp by lia. injection Hp as <-. simpl. intros; lia.
      * assert (e < k) as Hek' by lia. pose proof (i_edge _ _ I e p Hek' Hem Hp) as Hent. destruct p as [z|].
        -- destruct Hent as (e' & -> & He' & HT & Hmin). exists e'. split; [done|]. split; [lia|done].
        -- simpl in *. intros e' He' HT. destruct (decide (e' = k)) as [->|]; [|by apply (Hent e'); [lia|]].
           (* k touches the cluster of e, untouched since: e is one of the two nodes *)
           assert (forall y, EC k (src e) y -> Cl e y) as Hst.
           { intros y. unfold Cl. apply EC_stable; [lia|]. intros e' He''. apply Hent. lia. }
           assert (LastTouch k (src e) e) as HL.
           { split; [done|]. split; [apply src_touch; [lia|apply EC_refl]|].
             intros e' He'' (a' & b' & E' & HT'). apply (Hent e'); [lia|]. exists a', b'. split; [done|].
             destruct HT'; [left|right]; by apply Hst. }
           assert (forall r, r <= m -> lab l r = r -> EC k (src e) r -> e = node (d_set s) r) as Hfin.
           { intros r Hr Hlr Hc. pose proof (LastTouch_ext _ _ _ _ Hc HL) as HLr.
             destruct (Hnode r Hr Hlr) as (_ & _ & [[Hlt Hlast]|[Heq Hno]]).
             - by eapply LastTouch_unique.
             - exfalso. apply (Hno e); [lia|]. apply HLr. }
           destruct HT as (a' & b' & E' & HT). rewrite E in E'. injection E' as <- <-.
           assert (forall y, Cl e y -> EC k (src e) y) as Hback by (intros y; apply EC_mono; lia).
           apply Hd. destruct HT as [HT|HT]; [left; apply (Hfin i)|right; apply (Hfin j)]; try done;
             (eapply EC_trans; [by apply Hback|done]).
  - intros e He Hem. rewrite Hpar' by lia. case_decide as Hd; [|apply (i_edge_later _ _ I); lia].
    exfalso. destruct Hd as [Hd|Hd]; [destruct Ki as [[? ?]|[? ?]]|destruct Kj as [[? ?]|[? ?]]]; lia.
  - intros v p Hp. assert (v <= m) as Hv.
    { apply lookup_lt_Some in Hp. unfold par' in Hp. rewrite !insert_length, (i_parlen _ _ I) in Hp. lia. }
    rewrite Hpar' in Hp by lia.
    (* a representative without edges is alone *)
    assert (forall r y, (forall e, e < k -> ~ Touch e (EC k r)) -> EC k r y -> y = r) as Halone.
    { intros r y Hno Hc. symmetry. apply (EC_closed k (eq r)) in Hc; [by apply Hc|].
      intros e a' b' He E'. split; intros <-; exfalso; apply (Hno e He); eexists _, _; (split; [exact E'|]); [left|right]; apply EC_refl. }
    assert (forall r x, (r = i /\ x = a) \/ (r = j /\ x = b) -> m + v = node (d_set s) r -> Some (Some (Z.of_nat k)) = Some p -> VertexEntry (S k) v p) as Hwritten.
    { intros r x Hc Hn Hp'. injection Hp' as <-. destruct (Hrx r x Hc) as [Hxr Hxab].
      assert (r <= m /\ lab l r = r) as [Hr Hlr] by (destruct Hc as [[-> _]|[-> _]]; done).
      destruct (Hnode r Hr Hlr) as (_ & _ & [[Hlt Hlast]|[Heq Hno]]); [lia|].
      assert (v = r) as -> by lia. assert (x = r) as -> by (apply Halone; [done|by apply EC_sym]).
      exists k. split; [done|]. split; [lia|]. split.
      - exists a, b. split; [done|]. destruct Hxab; subst; auto.
      - intros e' He' (a' & b' & E' & HT). apply (Hno e'); [lia|]. exists a', b'. split; [done|].
        destruct HT as [HT|HT]; rewrite <- HT; [left|right]; apply EC_refl. }
    case_decide as Hd.
    + destruct Hd as [Hd|Hd]; [apply (Hwritten i a)|apply (Hwritten j b)]; auto.
    + pose proof (i_vertex _ _ I v p Hp) as Hent. destruct p as [z|].
      * destruct Hent as (e' & -> & He' & HT & Hmin). exists e'. split; [done|]. split; [lia|done].
      * simpl in *. intros e He (a' & b' & E' & HT). destruct (decide (e = k)) as [->|].
        2:{ apply (Hent e); [lia|]. exists a', b'. done. }
        rewrite E in E'. injection E' as <- <-.
        assert (forall y, EC k v y -> v = y) as Hval.
        { intros y Hc. apply (EC_closed k (eq v)) in Hc; [by apply Hc|].
          intros e a' b' He' E'. split; intros <-; exfalso; apply (Hent e He'); eexists _, _; eauto. }
        assert (root l v = v) as Hrv.
        { symmetry. apply Hval. apply (i_root _ _ I); fold l; [done|pose proof (root_le l v); lia|]. by rewrite (root_root (S m)). }
        assert (lab l v = v) as Hlv by (rewrite <- Hrv; by apply (root_lab (S m))).
        destruct (Hnode v Hv Hlv) as (_ & _ & [[Hlt Hlast]|[Heq Hno]]).
        -- destruct Hlast as (Hlt' & (a' & b' & E' & HT') & _). apply (Hent (node (d_set s) v)); [done|].
           exists a', b'. split; [done|]. destruct HT' as [HT'|HT']; apply Hval in HT'; auto.
        -- apply Hd. destruct HT as [HT|HT]; [left|right].
           ++ unfold ni. replace i with v; [done|]. unfold i. by rewrite <- HT.
           ++ unfold nj. replace j with v; [done|]. unfold j. by rewrite <- HT.
  - intros e. unfold par'.
    assert (length (d_par s) = m + S m) as Hpl by apply I.
    pose proof (count_insert (<[ni:=Some (Z.of_nat k)]> (d_par s)) nj e k ltac:(rewrite insert_length; lia)).
    pose proof (count_insert (d_par s) ni e k ltac:(lia)).
    pose proof (i_count _ _ I e). repeat case_decide; lia.
Qed.

Lemma loop_ok : forall rest k s, drop k edges = rest -> k <= m -> Inv k s ->
  exists s', dendro_loop m k rest s = Some s' /\ Inv m s'.
Proof.
  induction rest as [|[a b] rest IH]; intros k s Hd Hk I; simpl.
  - assert (length (drop k edges) = 0) as Hl by (by rewrite Hd). rewrite drop_length in Hl.
    assert (k = m) as -> by lia. eauto.
  - assert (edges !! k = Some (a, b)) as E. { rewrite <- (Nat.add_0_r k), <- lookup_drop, Hd. done. }
    destruct (Inv_step k s a b E I) as (s' & -> & I'). simpl. apply IH; [|apply lookup_lt_Some in E; lia|done].
    rewrite (drop_S _ _ _ E) in Hd. by injection Hd.
Qed.
End dendro.
