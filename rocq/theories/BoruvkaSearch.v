(** The search kernels of one Boruvka round: initial radii and nearest neighbours of the components. *)
From Verif Require Export BoruvkaOrder LabelProof NearestProof.
Local Open Scope nat_scope.

(** Weight of an edge between two values, in user indices. *)
Definition pair_weight {W} (dl : nat -> nat -> W) (metric : nat -> nat -> W -> W) (a b : nat) : W := metric a b (dl a b).

(** What the minimum spanning tree needs: a valid hierarchy over the n >= 2 values, leaf indices fitting in 31 bits, a float-like comparison,
    distances to volumes that never exceed the distance to a contained value, a symmetric metric at least the distance and
    finite, and a stack deep enough for the hierarchy. *)
Record MstInput {V W : Type} (le : V -> V -> Prop) (vol : nat -> V) (perm : list nat) (T : tree V)
    (ltb : W -> W -> bool) (zero inf : W) (dl : nat -> nat -> W) (dv : nat -> V -> W) (metric : nat -> nat -> W -> W) (cap H : nat) : Prop := {
  mi_valid : ValidTree le vol perm T;
  mi_perm : perm ≡ₚ seq 0 (length perm);
  mi_two : 2 <= length perm;
  mi_size : (N.of_nat (length perm) <= 2 ^ 31)%N;
  mi_sw : StrictWeak ltb;
  mi_safe : forall a, a < length perm -> DistSafe le vol ltb (dl a) (dv a);
  mi_metric : forall a b, a < length perm -> b < length perm -> a <> b -> ltb (pair_weight dl metric a b) (dl a b) = false;
  mi_sym : forall a b, a < length perm -> b < length perm -> a <> b -> weq ltb (pair_weight dl metric a b) (pair_weight dl metric b a) = true;
  mi_zero : forall a b, a < length perm -> b < length perm -> a <> b -> ltb (pair_weight dl metric a b) zero = false;
  mi_inf : forall a b, a < length perm -> b < length perm -> a <> b -> ltb (pair_weight dl metric a b) inf = true;
  mi_height : HeightLe T (getRoot T) H;
  mi_cap : H <= cap }.

Section Search.
Context {V W : Type} (le : V -> V -> Prop) (vol : nat -> V) (perm : list nat) (T : tree V)
  (ltb : W -> W -> bool) (zero inf : W) (dl : nat -> nat -> W) (dv : nat -> V -> W) (metric : nat -> nat -> W -> W) (cap H : nat).
Context (MI : MstInput le vol perm T ltb zero inf dl dv metric cap H).
Notation n := (length perm).
Definition P (i : nat) : nat := default 0 (perm !! i).
(** EdgeModel.weight between two leaves *)
Definition wt (p : nat * nat) : W := pair_weight dl metric (P p.1) (P p.2).
Notation lt := (plt ltb wt).
Notation SW := (mi_sw _ _ _ _ _ _ _ _ _ _ _ _ MI).
Notation VT := (mi_valid _ _ _ _ _ _ _ _ _ _ _ _ MI).
Notation n2 := (mi_two _ _ _ _ _ _ _ _ _ _ _ _ MI).
Notation NB := (mi_size _ _ _ _ _ _ _ _ _ _ _ _ MI).

Lemma P_lookup i : i < n -> perm !! i = Some (P i).
Proof. intros Hi. unfold P. by destruct (lookup_lt_is_Some_2 perm i Hi) as [x ->]. Qed.
Lemma P_lt i : i < n -> P i < n.
Proof.
  intros Hi. pose proof (P_lookup i Hi) as E. apply elem_of_list_lookup_2 in E. rewrite (mi_perm _ _ _ _ _ _ _ _ _ _ _ _ MI) in E. apply elem_of_seq in E. lia.
Qed.
Lemma perm_nodup : NoDup perm.
Proof. rewrite (mi_perm _ _ _ _ _ _ _ _ _ _ _ _ MI). apply NoDup_seq. Qed.
Lemma P_inj i j : i < n -> j < n -> P i = P j -> i = j.
Proof. intros Hi Hj E. pose proof (P_lookup i Hi) as E1. pose proof (P_lookup j Hj) as E2. rewrite E in E1. by apply (NoDup_lookup perm i j _ perm_nodup E1 E2). Qed.
Lemma P_ne i j : i < n -> j < n -> i <> j -> P i <> P j.
Proof. intros Hi Hj Hne E. by apply Hne, P_inj. Qed.
Lemma value i : i < n -> getValue T i = Some (P i).
Proof. intros Hi. rewrite (vt_values _ _ _ _ VT). by apply P_lookup. Qed.
Lemma wt_sym i j : i < n -> j < n -> i <> j -> weq ltb (wt (i, j)) (wt (j, i)) = true.
Proof. intros Hi Hj Hne. apply (mi_sym _ _ _ _ _ _ _ _ _ _ _ _ MI); [by apply P_lt|by apply P_lt|by apply P_ne]. Qed.
Lemma wt_dl i j : i < n -> j < n -> i <> j -> ltb (wt (i, j)) (dl (P i) (P j)) = false.
Proof. intros Hi Hj Hne. apply (mi_metric _ _ _ _ _ _ _ _ _ _ _ _ MI); [by apply P_lt|by apply P_lt|by apply P_ne]. Qed.
Lemma wt_zero i j : i < n -> j < n -> i <> j -> ltb (wt (i, j)) zero = false.
Proof. intros Hi Hj Hne. apply (mi_zero _ _ _ _ _ _ _ _ _ _ _ _ MI); [by apply P_lt|by apply P_lt|by apply P_ne]. Qed.
Lemma wt_inf i j : i < n -> j < n -> i <> j -> ltb (wt (i, j)) inf = true.
Proof. intros Hi Hj Hne. apply (mi_inf _ _ _ _ _ _ _ _ _ _ _ _ MI); [by apply P_lt|by apply P_lt|by apply P_ne]. Qed.
Lemma PO : PairOrder n lt.
Proof. exact (plt_order ltb SW wt n (mi_size _ _ _ _ _ _ _ _ _ _ _ _ MI) wt_sym). Qed.

(** ** Nodes *)
Definition Cov (x j : nat) : Prop := (rg perm T x).1 <= j <= (rg perm T x).2.
Definition sz (x : nat) : nat := (rg perm T x).2 - (rg perm T x).1.
Lemma node_covers x : x < 2 * n - 1 -> exists rp, Covers T x (rg perm T x).1 (rg perm T x).2 rp /\ (rg perm T x).1 <= (rg perm T x).2 < n.
Proof.
  intros Hx. destruct (vt_all _ _ _ _ VT x Hx) as (l & r & rp & HC). rewrite (rg_ok le vol perm T VT n2 _ _ _ _ HC). exists rp. split; [done|].
  apply (Covers_range le vol perm T VT _ _ _ _ HC).
Qed.
Lemma Cov_lt x j : x < 2 * n - 1 -> Cov x j -> j < n.
Proof. intros Hx HC. destruct (node_covers x Hx) as (rp & _ & ?). unfold Cov in HC. lia. Qed.
Lemma leaf_iff x : isLeaf T x = true <-> x < n.
Proof. unfold isLeaf. rewrite (vt_size _ _ _ _ VT). apply Nat.ltb_lt. Qed.
Lemma node_iff x : isLeaf T x = false <-> n <= x.
Proof. unfold isLeaf. rewrite (vt_size _ _ _ _ VT). apply Nat.ltb_ge. Qed.
Lemma leaf_rg x : x < n -> rg perm T x = (x, x).
Proof.
  intros Hx. destruct (vt_all _ _ _ _ VT x) as (l & r & rp & HC); [lia|]. rewrite (rg_ok le vol perm T VT n2 _ _ _ _ HC).
  by destruct (leaf_case le vol perm T VT _ _ _ _ HC) as (-> & -> & _); [by apply leaf_iff|].
Qed.
Lemma Cov_leaf x j : x < n -> Cov x j <-> j = x.
Proof. intros Hx. unfold Cov. rewrite leaf_rg by done. cbn. lia. Qed.
Lemma children x : n <= x < 2 * n - 1 -> exists a b, getLeftChild T x = Some a /\ getRightChild T x = Some (Some b) /\ a < 2 * n - 1 /\ b < 2 * n - 1 /\
  sz x = sz a + sz b + 1 /\ (forall j, Cov x j <-> Cov a j \/ Cov b j).
Proof.
  intros Hx. destruct (node_children le vol perm T VT n2 x Hx) as (a & b & l & s & r & rp & E1 & E2 & HC & Hs & H1 & H2). exists a, b.
  destruct (child_lt le vol perm T VT n2 x a (or_introl E1)) as [? _]; [lia|]. destruct (child_lt le vol perm T VT n2 x b (or_intror E2)) as [? _]; [lia|].
  split_and!; try done.
  - unfold sz. rewrite (rg_ok le vol perm T VT n2 _ _ _ _ HC), (rg_ok le vol perm T VT n2 _ _ _ _ H1), (rg_ok le vol perm T VT n2 _ _ _ _ H2). cbn. lia.
  - intros j. unfold Cov. rewrite (rg_ok le vol perm T VT n2 _ _ _ _ HC), (rg_ok le vol perm T VT n2 _ _ _ _ H1), (rg_ok le vol perm T VT n2 _ _ _ _ H2). cbn. lia.
Qed.
Lemma root_node : n <= getRoot T < 2 * n - 1.
Proof.
  pose proof n2. assert (getRoot T = n) as -> by (unfold getRoot; apply (vt_size _ _ _ _ VT)). lia.
Qed.
Lemma root_rg : rg perm T (getRoot T) = (0, n - 1).
Proof. apply (rg_ok le vol perm T VT n2 _ _ _ _ (vt_root _ _ _ _ VT)). Qed.

(** distance to a node: at most the weight to every leaf below *)
Lemma dist_node i x : i < n -> x < 2 * n - 1 -> exists d, distance2node T dl dv i x = Some d /\
  (x < n -> d = dl (P i) (P x)) /\ forall j, Cov x j -> i <> j -> ltb (wt (i, j)) d = false.
Proof.
  intros Hi Hx. unfold distance2node. rewrite value by done. cbn [mbind option_bind]. unfold node_distance. destruct (isLeaf T x) eqn:EL.
  - apply leaf_iff in EL. rewrite value by done. cbn. eexists. split; [done|]. split; [done|]. intros j Hj Hne. apply Cov_leaf in Hj as ->; [|done]. by apply wt_dl.
  - pose proof EL as EL'. apply node_iff in EL'. destruct (node_covers x Hx) as (rp & HC & Hr).
    destruct (node_case le vol perm T VT _ _ _ _ HC EL) as (s & c1 & c2 & v & _ & _ & _ & _ & Ev & [Hh _] & _). rewrite Ev. cbn.
    eexists. split; [done|]. split; [lia|]. intros j Hj Hne. pose proof (Cov_lt _ _ Hx Hj) as Hjn. apply (w_trans ltb SW _ (dl (P i) (P j))).
    + apply (mi_safe _ _ _ _ _ _ _ _ _ _ _ _ MI); [by apply P_lt|]. apply (Hh j); [exact Hj|by apply P_lookup].
    + by apply wt_dl.
Qed.

(** ** The components at the start of the round *)
Context (c : nat -> nat).
Hypothesis Hc : forall i, i < n -> c i < n.
Hypothesis Hcc : forall i, i < n -> c (c i) = c i.
Hypothesis Htwo : exists i j, i < n /\ j < n /\ c i <> c j.
Context (labels : list Z).
(** labels after reduceLabels *)
Hypothesis Hlab : forall i, i < n -> labels !! i = Some (Z.of_nat (c i)).
Hypothesis Hnode : forall x, x < 2 * n - 1 -> exists z, labels !! x = Some z /\ forall i, i < n -> z = Z.of_nat (c i) -> forall j, Cov x j -> c j = c i.
Notation best := (best n lt c).
Notation Out := (Out n c).
Notation Rep := (Rep n c).
Definition wb (r : nat) : W := wt (best r).
Notation best_spec := (best_spec n lt PO c Hc Hcc Htwo).

Lemma rep_c i : i < n -> Rep (c i). Proof. intros Hi. split; [by apply Hc|by apply Hcc]. Qed.
Lemma comp i : i < n -> component labels i = Some (c i).
Proof.
  intros Hi. unfold component. rewrite Hlab by done. cbn. unfold label_index. rewrite (proj2 (Z.leb_le _ _)) by lia. by rewrite Nat2Z.id.
Qed.
Lemma out_N r p : Out r p -> InN n p.
Proof. intros (? & ? & ? & ?). split_and!; [done..|]. intros E. rewrite E in *. congruence. Qed.
Lemma wb_le r p : Rep r -> Out r p -> ltb (wt p) (wb r) = false.
Proof.
  intros Hr Hp. destruct (best_spec r Hr) as [HO Hmin]. apply (plt_weight ltb SW wt n NB wt_sym); [by eapply out_N|by eapply out_N|by apply Hmin].
Qed.
Lemma wb_swap r p : Rep r -> Out r (p.2, p.1) -> ltb (wt p) (wb r) = false.
Proof.
  intros Hr Hp. pose proof (wb_le r _ Hr Hp) as H1. destruct (out_N _ _ Hp) as (? & ? & ?). destruct p as [a b]. cbn in *.
  assert (weq ltb (wt (a, b)) (wt (b, a)) = true) as E by (apply wt_sym; auto). apply weq_true in E as [? ?]. by apply (w_trans ltb SW _ (wt (b, a))).
Qed.
Lemma wb_inf r : Rep r -> ltb (wb r) inf = true.
Proof. intros Hr. destruct (best_spec r Hr) as [HO _]. unfold wb. destruct (out_N _ _ HO) as (? & ? & ?). destruct (best r). by apply wt_inf. Qed.

(** ** Initial radii *)
Definition RadOK (radii : list W) : Prop := length radii = n /\ forall r x, Rep r -> radii !! r = Some x -> ltb x (wb r) = false.
Lemma rad_insert radii r x : RadOK radii -> (Rep r -> ltb x (wb r) = false) -> RadOK (<[r := x]> radii).
Proof.
  intros [HL HR] Hx. split; [by rewrite insert_length|]. intros r' y Hr' Hy. destruct (upd_cases _ _ _ _ _ Hy) as [(-> & -> & _)|[_ ?]]; [by apply Hx|by apply HR].
Qed.
Lemma wmin_rad radii r old x : RadOK radii -> radii !! r = Some old -> (Rep r -> ltb x (wb r) = false) -> RadOK (<[r := wmin ltb old x]> radii).
Proof. intros HR Ho Hx. apply rad_insert; [done|]. intros Hr. apply wmin_ge; [by apply HR|by apply Hx]. Qed.

Definition ProgOK (prog : list (nat * W)) : Prop := forall r x, (r, x) ∈ prog -> Rep r /\ ltb x (wb r) = false.
Lemma label_eq i j : i < n -> j < n -> (Z.of_nat (c i) =? Z.of_nat (c j))%Z = (c i =? c j).
Proof. intros. destruct (Z.eqb_spec (Z.of_nat (c i)) (Z.of_nat (c j))), (Nat.eqb_spec (c i) (c j)); lia. Qed.
Lemma index_nat a : label_index (Z.of_nat a) = Some a.
Proof. unfold label_index. rewrite (proj2 (Z.leb_le _ _)) by lia. by rewrite Nat2Z.id. Qed.
Lemma radius_prog_ok i : S i < n -> exists prog, radius_prog T dl metric labels i = Some prog /\ ProgOK prog.
Proof.
  intros Hi. unfold radius_prog. rewrite (Hlab i), (Hlab (S i)) by lia. cbn [mbind option_bind]. rewrite label_eq by lia. destruct (Nat.eqb_spec (c i) (c (S i))) as [E|E].
  - eexists. split; [done|]. by intros r x ?%elem_of_nil.
  - rewrite !value by lia. cbn [mbind option_bind]. rewrite !index_nat. cbn [mbind option_bind]. eexists. split; [done|]. intros r x Hrx.
    change (metric (P i) (P (S i)) (dl (P i) (P (S i)))) with (wt (i, S i)) in Hrx. apply elem_of_cons in Hrx as [E1|Hrx].
    + injection E1 as -> ->. split; [apply rep_c; lia|]. apply wb_le; [apply rep_c; lia|]. split_and!; cbn; auto; lia.
    + apply elem_of_list_singleton in Hrx as E1. injection E1 as -> ->. split; [apply rep_c; lia|]. apply wb_swap; [apply rep_c; lia|]. split_and!; cbn; auto; lia.
Qed.
Lemma radius_progs : exists progs, mapM (radius_prog T dl metric labels) (seq 0 (n - 1)) = Some progs /\ Forall ProgOK progs.
Proof.
  assert (forall l, (forall i, i ∈ l -> S i < n) -> exists progs, mapM (radius_prog T dl metric labels) l = Some progs /\ Forall ProgOK progs) as Hl.
  { induction l as [|i l IH]; intros HI; [by exists []|]. destruct (radius_prog_ok i) as (p & Ep & Hp); [apply HI; by left|]. destruct IH as (ps & Eps & Hps); [intros; apply HI; by right|].
    exists (p :: ps). cbn. rewrite Ep. cbn. rewrite Eps. cbn. auto. }
  apply Hl. intros i Hi. apply elem_of_seq in Hi. lia.
Qed.
Lemma radii_ok progs : Forall ProgOK progs -> Kernel (rstep ltb) rlive (RState (replicate n inf) progs) (fun s => RadOK (r_radii s)).
Proof.
  intros HP. apply (Kernel_inv _ _ _ _ (fun s => RadOK (r_radii s) /\ Forall ProgOK (r_thr s)) (fun s => sum_list_with length (r_thr s))).
  - split; [|done]. split; [apply replicate_length|]. intros r x Hr [-> _]%lookup_replicate. apply (w_asym ltb SW), wb_inf, Hr.
  - intros s t s' _. unfold rstep, rlive. destruct (r_thr s !! t) as [[|[r x] rest]|] eqn:E; cbn; try done. eauto.
  - intros s t [HR HT] ([r x] & rest & E). unfold rstep. rewrite E. cbn [mbind option_bind]. pose proof (proj1 (Forall_lookup _ _) HT _ _ E) as HPr.
    destruct (HPr r x) as [Hr Hx]; [by left|]. destruct (lookup_lt_is_Some_2 (r_radii s) r) as [old Ho]. { destruct HR as [-> _]. apply Hr. }
    rewrite Ho. cbn [mbind option_bind]. eexists. split; [done|]. cbn [r_radii r_thr]. split_and!.
    + by apply wmin_rad.
    + apply Forall_insert; [done|]. intros r' x' Hin. apply HPr. by right.
    + pose proof (sum_map_insert length (r_thr s) t _ rest E) as Hs. cbn [length] in Hs. lia.
  - intros s [HR _] _. exact HR.
Qed.

(** ** Nearest neighbours of the components *)
Notation E := (edge_of wt).
Definition BestOK (i : nat) (b : dedge W) : Prop := b = no_edge inf \/ exists j, j < n /\ c j <> c i /\ b = E (i, j).
(** the thread that must find the smallest edge of its component *)
Definition Star (i : nat) : Prop := (best (c i)).1 = i.
Definition es (i : nat) : dedge W := E (best (c i)).
Definition jstar (i : nat) : nat := (best (c i)).2.

Lemma out_ij i j : i < n -> j < n -> c j <> c i -> Out (c i) (i, j). Proof. intros. by split_and!. Qed.
Lemma star_pair i : Star i -> best (c i) = (i, jstar i).
Proof. unfold Star, jstar. intros HS. destruct (best (c i)) as [x y]. cbn in *. congruence. Qed.
Lemma star_out i : i < n -> jstar i < n /\ c (jstar i) <> c i.
Proof. intros Hi. destruct (best_spec _ (rep_c i Hi)) as [(? & ? & ? & ?) _]. done. Qed.
Lemma best_weight i b : i < n -> BestOK i b -> ltb (EdgeModel.weight b) (wb (c i)) = false.
Proof.
  intros Hi [->|(j & Hj & Hcj & ->)]; cbn.
  - by apply (w_asym ltb SW), wb_inf, rep_c.
  - apply wb_le; [by apply rep_c|by apply out_ij].
Qed.
Lemma better i b : i < n -> Star i -> BestOK i b -> dedge_lt ltb (es i) b = false -> b = es i.
Proof.
  intros Hi HS [->|(j & Hj & Hcj & ->)] Hl.
  - destruct (C28_total _ ltb SW) as (_ & _ & _ & HI). destruct (best_spec _ (rep_c i Hi)) as [HO _]. destruct (out_N _ _ HO) as (? & ? & ?).
    unfold es, edge_of in Hl. rewrite HI in Hl; [done| | |]; [by apply (vertex ltb wt n NB wt_sym)..|].
    apply (w_asym ltb SW). exact (wb_inf _ (rep_c i Hi)).
  - unfold es in *. f_equal. pose proof (star_pair i HS) as EB. pose proof (out_ij i j Hi Hj Hcj) as HO.
    apply (best_unique n lt PO c Hc Hcc Htwo); [by apply rep_c|done|]. rewrite <- (same_source ltb SW wt n NB wt_sym); [done| |by eapply out_N|by rewrite EB].
    eapply out_N. apply (best_spec _ (rep_c i Hi)).
Qed.
Lemma not_better i b : i < n -> Star i -> BestOK i b -> dedge_lt ltb b (es i) = false.
Proof.
  intros Hi HS [->|(j & Hj & Hcj & ->)].
  - unfold dedge_lt, es. cbn [EdgeModel.weight no_edge edge_of mk_edge]. pose proof (wb_inf _ (rep_c i Hi)) as HI. fold (wb (c i)).
    rewrite (w_asym ltb SW _ _ HI). unfold weq. rewrite HI, andb_false_r. done.
  - unfold es. pose proof (star_pair i HS) as EB. pose proof (out_ij i j Hi Hj Hcj) as HO. destruct (best_spec _ (rep_c i Hi)) as [HB Hmin].
    rewrite (same_source ltb SW wt n NB wt_sym); [by apply Hmin|by eapply out_N|by eapply out_N|by rewrite EB].
Qed.

Lemma consider_spec i a b d rad : i < n -> a < 2 * n - 1 -> distance2node T dl dv i a = Some d -> ltb rad (wb (c i)) = false -> BestOK i b ->
  exists t o, consider T ltb metric labels i (c i) b a d rad = Some (t, o) /\ (t = true -> n <= a) /\ (forall e, o = Some e -> t = false /\ BestOK i e) /\
    (Star i -> Cov a (jstar i) -> t = true \/ o = Some (es i) \/ (o = None /\ b = es i)) /\ (Star i -> b = es i -> o = None).
Proof.
  intros Hi Ha Hd Hrad HB. unfold consider. destruct (Hnode a Ha) as (z & Ez & Hz). rewrite Ez. cbn [mbind option_bind].
  destruct (dist_node i a Hi Ha) as (d' & Hd' & Hleaf & Hcov). rewrite Hd in Hd'. injection Hd' as <-.
  assert (Hstar : Star i -> Cov a (jstar i) -> negb (Z.of_nat (c i) =? z)%Z && BoruvkaModel.leb ltb d rad = true).
  { intros HS HC. destruct (star_out i Hi) as [Hj Hcj]. apply andb_true_intro. split.
    - apply negb_true_iff, Z.eqb_neq. intros Ez2. apply Hcj. by apply (Hz i).
    - apply (wleb_iff ltb). apply (w_trans ltb SW _ (wb (c i))); [|done]. unfold wb. rewrite (star_pair i HS). apply Hcov; [done|]. intros X. by rewrite <- X in Hcj. }
  destruct (negb (Z.of_nat (c i) =? z)%Z && _) eqn:EC.
  - destruct (isLeaf T a) eqn:EL.
    + apply leaf_iff in EL. rewrite !value by done. cbn [mbind option_bind]. rewrite Hleaf by done.
      change (mk_edge (N.of_nat i) (N.of_nat a) (metric (P i) (P a) (dl (P i) (P a)))) with (E (i, a)).
      assert (c a <> c i) as Hca.
      { apply andb_prop in EC as [EC _]. apply negb_true_iff, Z.eqb_neq in EC. rewrite Hlab in Ez by done. injection Ez as <-. lia. }
      assert (BestOK i (E (i, a))) as HBa by (right; eauto).
      eexists _, _. split; [done|]. split; [done|]. split; [|split].
      * intros e He. destruct (dedge_lt _ _ _); [|done]. by injection He as <-.
      * intros HS HC. apply Cov_leaf in HC; [|done]. right. assert (E (i, a) = es i) as -> by (unfold es; rewrite (star_pair i HS), HC; done).
        destruct (dedge_lt ltb (es i) b) eqn:ED; [by left|right]. split; [done|]. by apply better.
      * intros HS ->. by rewrite (not_better i (E (i, a))).
    + apply node_iff in EL. eexists _, _. split; [done|]. split; [done|]. split; [done|]. split; [by left|done].
  - eexists _, _. split; [done|]. split; [done|]. split; [done|]. split; [|done]. intros HS HC. by specialize (Hstar HS HC).
Qed.

(** Thread invariant *)
Definition sumsz (S : list (nat * W)) : nat := sum_list_with (fun e => sz e.1) S.
Lemma sumsz_cons x d S : sumsz ((x, d) :: S) = sz x + sumsz S. Proof. done. Qed.
Definition Ent (i : nat) (e : nat * W) : Prop := n <= e.1 < 2 * n - 1 /\ forall j, Cov e.1 j -> c j <> c i -> ltb (wt (i, j)) e.2 = false.
Definition InS (S : list (nat * W)) (j : nat) : Prop := exists e, e ∈ S /\ Cov e.1 j.
Definition Base (i : nat) (S : list (nat * W)) (b : dedge W) (r : W) : Prop :=
  BestOK i b /\ ltb r (wb (c i)) = false /\ Forall (Ent i) S /\ StackOk T H S.
Definition Hgt (x : nat) (S : list (nat * W)) : Prop := exists h, HeightLe T x h /\ length S + h <= H.
Definition CL (x j : nat) : Prop := exists lc, getLeftChild T x = Some lc /\ Cov lc j.
Definition CR (x j : nat) : Prop := exists rc, getRightChild T x = Some (Some rc) /\ Cov rc j.
Definition LeftIn (x : nat) (tl : bool) : Prop := forall lc, tl = true -> getLeftChild T x = Some lc -> n <= lc.
Definition TI (i : nat) (pc : @npc W) : Prop :=
  match pc with
  | NStart | NDone => True
  | NNode x d K b r => Base i K b r /\ Ent i (x, d) /\ Hgt x K /\ (Star i -> b = es i \/ Cov x (jstar i) \/ InS K (jstar i))
  | NLeft x K b r => Base i K b r /\ n <= x < 2 * n - 1 /\ Hgt x K /\ (Star i -> b = es i \/ Cov x (jstar i) \/ InS K (jstar i))
  | NLeftMin x K b r => Base i K b r /\ n <= x < 2 * n - 1 /\ Hgt x K /\ (Star i -> b = es i \/ CR x (jstar i) \/ InS K (jstar i))
  | NRight x K b r tl => Base i K b r /\ n <= x < 2 * n - 1 /\ Hgt x K /\ LeftIn x tl /\
      (Star i -> b = es i \/ (tl = true /\ CL x (jstar i)) \/ CR x (jstar i) \/ InS K (jstar i))
  | NRightMin x K b r tl => Base i K b r /\ n <= x < 2 * n - 1 /\ Hgt x K /\ LeftIn x tl /\
      (Star i -> b = es i \/ (tl = true /\ CL x (jstar i)) \/ InS K (jstar i))
  | NRead b | NMin b | NWrite b => BestOK i b /\ (Star i -> b = es i)
  end.
Definition ph (pc : @npc W) : nat :=
  match pc with
  | NStart => 6 * (n - 1) + 5
  | NNode x _ K _ _ => 6 * (sz x + sumsz K) + 4
  | NLeft x K _ _ => 6 * (sz x + sumsz K) + 3
  | NLeftMin x K _ _ => 6 * (sz x + sumsz K) + 2
  | NRight x K _ _ _ => 6 * (sz x + sumsz K) + 1
  | NRightMin x K _ _ _ => 6 * (sz x + sumsz K)
  | NRead _ => 3 | NMin _ => 2 | NWrite _ => 1 | NDone => 0
  end.
Lemma sz_pos x : n <= x < 2 * n - 1 -> 1 <= sz x.
Proof. intros Hx. destruct (children x Hx) as (a & b & _ & _ & _ & _ & E1 & _). lia. Qed.

Lemma pop_ok i S b r : Base i S b r -> (Star i -> b = es i \/ InS S (jstar i)) -> TI i (pop S b r) /\ ph (pop S b r) <= 6 * sumsz S + 4.
Proof.
  intros (HB & Hr & HS & HK) HP. destruct S as [|[x d] S]; cbn [pop].
  - split; [|cbn; lia]. split; [done|]. intros HSt. destruct (HP HSt) as [?|(e & He & _)]; [done|]. by apply elem_of_nil in He.
  - apply Forall_cons in HS as [Hx HS]. destruct HK as [(h & Hh & Hl) HK]. split; [|cbn [ph]; rewrite ?sumsz_cons; lia].
    split; [done|]. split; [done|]. split; [by exists h|]. intros HSt. destruct (HP HSt) as [?|(e & He & HC)]; [by left|].
    apply elem_of_cons in He as [->|He]; [right; by left|right; right]. by exists e.
Qed.
Lemma advance_ok i x S b r tl tr : i < n -> Base i S b r -> n <= x < 2 * n - 1 -> Hgt x S -> LeftIn x tl ->
  (forall rc, tr = true -> getRightChild T x = Some (Some rc) -> n <= rc) ->
  (Star i -> b = es i \/ (tl = true /\ CL x (jstar i)) \/ (tr = true /\ CR x (jstar i)) \/ InS S (jstar i)) ->
  exists pc, advance T ltb dl dv cap i x S b r tl tr = Some pc /\ TI i pc /\ ph pc < 6 * (sz x + sumsz S).
Proof.
  intros Hi HB Hx HH HLI HRI HP. unfold advance. pose proof (sz_pos x Hx) as Hsz. destruct (negb tl && negb tr) eqn:EN.
  - apply andb_prop in EN as [E1%negb_true_iff E2%negb_true_iff]. subst. destruct (pop_ok i S b r HB) as [H1 H2].
    { intros HSt. destruct (HP HSt) as [?|[[? _]|[[? _]|?]]]; [by left|done|done|by right]. }
    eexists. split; [done|]. split; [done|]. lia.
  - destruct (children x Hx) as (lc & rc & EL & ER & Hlc & Hrc & Esz & Hcov). rewrite EL, ER. cbn [mbind option_bind mjoin option_join].
    destruct (dist_node i lc Hi Hlc) as (dL & HdL & _ & HcL). destruct (dist_node i rc Hi Hrc) as (dR & HdR & _ & HcR). rewrite HdL, HdR. cbn [mbind option_bind].
    assert (HeL : tl = true -> Ent i (lc, dL)).
    { intros Htl. split; [specialize (HLI lc Htl EL); cbn; lia|]. cbn. intros j Hj Hcj. apply HcL; [done|]. intros ->. congruence. }
    assert (HeR : tr = true -> Ent i (rc, dR)).
    { intros Htr. split; [specialize (HRI rc Htr ER); cbn; lia|]. cbn. intros j Hj Hcj. apply HcR; [done|]. intros ->. congruence. }
    destruct HH as (h & Hh & Hl). destruct (HeightLe_inv T _ _ _ _ Hh (proj2 (node_iff x) (proj1 Hx)) EL ER) as (h' & -> & HhL & HhR).
    assert (HPL : CL x (jstar i) -> Cov lc (jstar i)). { intros (y & Ey & ?). congruence. }
    assert (HPR : CR x (jstar i) -> Cov rc (jstar i)). { intros (y & Ey & ?). congruence. }
    destruct HB as (HB & Hr & HS & HK). destruct tl, tr; cbn [andb orb negb] in *; try done.
    + assert (1 <= h') as Hh1. { pose proof (HLI lc eq_refl EL) as Hnl. apply node_iff in Hnl. destruct HhL; [congruence|lia]. }
      pose proof (mi_cap _ _ _ _ _ _ _ _ _ _ _ _ MI). rewrite (proj2 (Nat.ltb_lt _ _)) by lia.
      destruct (BoruvkaModel.leb ltb dL dR); cbn [orb].
      * eexists. split; [done|]. split; [|cbn [ph]; rewrite ?sumsz_cons; lia]. split; [|split; [by apply HeL|split; [exists h'; cbn; split; [done|lia]|]]].
        -- split_and!; [done..| |]; [apply Forall_cons; split; [by apply HeR|done]|]. cbn. split; [|done]. exists h'. split; [done|lia].
        -- intros HSt. destruct (HP HSt) as [?|[[_ ?]|[[_ ?]|(e & He & HC)]]]; [by left|right; left; by apply HPL| |].
           ++ right. right. exists (rc, dR). split; [by left|by apply HPR].
           ++ right. right. exists e. split; [by right|done].
      * eexists. split; [done|]. split; [|cbn [ph]; rewrite ?sumsz_cons; lia]. split; [|split; [by apply HeR|split; [exists h'; cbn; split; [done|lia]|]]].
        -- split_and!; [done..| |]; [apply Forall_cons; split; [by apply HeL|done]|]. cbn. split; [|done]. exists h'. split; [done|lia].
        -- intros HSt. destruct (HP HSt) as [?|[[_ ?]|[[_ ?]|(e & He & HC)]]]; [by left| |right; left; by apply HPR|].
           ++ right. right. exists (lc, dL). split; [by left|by apply HPL].
           ++ right. right. exists e. split; [by right|done].
    + rewrite orb_true_r. eexists. split; [done|]. split; [|cbn [ph]; rewrite ?sumsz_cons; lia]. split; [by split_and!|]. split; [by apply HeL|]. split; [exists h'; split; [done|lia]|].
      intros HSt. destruct (HP HSt) as [?|[[_ ?]|[[? _]|?]]]; [by left|right; left; by apply HPL|done|by right; right].
    + eexists. split; [done|]. split; [|cbn [ph]; rewrite ?sumsz_cons; lia]. split; [by split_and!|]. split; [by apply HeR|]. split; [exists h'; split; [done|lia]|].
      intros HSt. destruct (HP HSt) as [?|[[? _]|[[_ ?]|?]]]; [by left|done|right; left; by apply HPR|by right; right].
Qed.

(** Shared state *)
Definition WOK (ws : list W) : Prop := length ws = n /\ forall r x, Rep r -> ws !! r = Some x -> ltb x (wb r) = false.
Definition WLE (ws : list W) (r : nat) : Prop := exists x, ws !! r = Some x /\ ltb (wb r) x = false.
Definition EOK (es : list (dedge W)) : Prop := length es = n /\ forall i b, es !! i = Some b -> BestOK i b.
Definition SI (ws : list W) (edges : list (dedge W)) (i : nat) (pc : @npc W) : Prop :=
  match pc with NWrite _ => WLE ws (c i) | NDone => WLE ws (c i) /\ edges !! i = Some (es i) | _ => True end.
Definition NInv (s : nstate) : Prop :=
  RadOK (n_radii s) /\ WOK (n_weights s) /\ EOK (n_edges s) /\ length (n_thr s) = n /\
  forall i pc, n_thr s !! i = Some pc -> TI i pc /\ (Star i -> SI (n_weights s) (n_edges s) i pc).
Definition npot (s : nstate) : nat := sum_list_with ph (n_thr s).

Lemma advance_SI ws edges i x S b r tl tr pc : advance T ltb dl dv cap i x S b r tl tr = Some pc -> SI ws edges i pc.
Proof.
  unfold advance. intros E1. destruct (negb tl && negb tr); [injection E1 as <-; unfold pop; by destruct S as [|[]]|].
  apply bind_Some in E1 as (lc & _ & E1). apply bind_Some in E1 as (rc & _ & E1). apply bind_Some in E1 as (dL & _ & E1). apply bind_Some in E1 as (dR & _ & E1).
  cbn zeta in E1. destruct (tl && tr); [destruct (_ <? _); [|done]|]; by injection E1 as <-.
Qed.
Lemma ninv_update s i pc pc' radii ws edges : NInv s -> n_thr s !! i = Some pc ->
  RadOK radii -> WOK ws -> EOK edges -> (forall r, WLE (n_weights s) r -> WLE ws r) -> (forall k, k <> i -> edges !! k = n_edges s !! k) ->
  TI i pc' -> (Star i -> SI ws edges i pc') -> ph pc' < ph pc ->
  NInv (NState radii ws edges (<[i := pc']> (n_thr s))) /\ npot (NState radii ws edges (<[i := pc']> (n_thr s))) < npot s.
Proof.
  intros (HR & HW & HE & HL & HT) Hpc HR' HW' HE' Hmono Hedges HTI HSI Hph. split.
  - split_and!; cbn [n_radii n_weights n_edges n_thr]; [done..|by rewrite insert_length|]. intros k q Hq. destruct (upd_cases _ _ _ _ _ Hq) as [(-> & -> & _)|[Hne Hq']]; [done|].
    destruct (HT k q Hq') as [A B]. split; [done|]. intros HS. specialize (B HS). destruct q; cbn in *; auto. destruct B as [B1 B2]. split; [by apply Hmono|]. by rewrite Hedges.
  - unfold npot. cbn [n_thr]. pose proof (sum_map_insert ph (n_thr s) i pc pc' Hpc). lia.
Qed.
Lemma weights_min ws r old x : WOK ws -> ws !! r = Some old -> (Rep r -> ltb x (wb r) = false) ->
  WOK (<[r := wmin ltb old x]> ws) /\ forall r', WLE ws r' -> WLE (<[r := wmin ltb old x]> ws) r'.
Proof.
  intros [HL HW] Ho Hx. split.
  - split; [by rewrite insert_length|]. intros r' y Hr' Hy. destruct (upd_cases _ _ _ _ _ Hy) as [(-> & -> & _)|[_ ?]]; [|by apply HW].
    apply wmin_ge; [by apply HW|by apply Hx].
  - intros r' (y & Hy & Hle). destruct (decide (r' = r)) as [->|Hne].
    + rewrite Ho in Hy. injection Hy as <-. exists (wmin ltb old x). split; [apply list_lookup_insert; by eapply lookup_lt_Some|].
      apply (w_trans ltb SW _ old); [|done]. by apply (wmin_le ltb SW).
    + exists y. by rewrite list_lookup_insert_ne.
Qed.

Variables (shared bounded : bool) (lower : list W).
(** what lower_bounds promises *)
Definition LowOK (c : nat -> nat) (lower : list W) : Prop := length lower = n /\ forall i j b, i < n -> j < n -> c j <> c i -> lower !! i = Some b -> ltb (wt (i, j)) b = false.
Hypothesis Hlow : LowOK c lower.
Notation nstep := (nstep T ltb zero inf dl dv metric cap shared bounded labels lower).

Lemma nstep_ok s i : NInv s -> nlive s i -> exists s', nstep s i = Some s' /\ NInv s' /\ npot s' < npot s.
Proof.
  intros HI (pc & Hpc & Hne). pose proof HI as (HR & HW & HE & HL & HT). pose proof (HT i pc Hpc) as [HTI HSI].
  assert (i < n) as Hi by (rewrite <- HL; by eapply lookup_lt_Some). pose proof (rep_c i Hi) as Hrep.
  unfold BoruvkaModel.nstep. rewrite Hpc, (comp i Hi). cbn [mbind option_bind].
  destruct (lookup_lt_is_Some_2 (n_radii s) (c i)) as [rc Hrc]; [destruct HR as [-> _]; by apply Hc|].
  destruct (lookup_lt_is_Some_2 (n_weights s) (c i)) as [wc Hwc]; [destruct HW as [-> _]; by apply Hc|].
  pose proof (proj2 HR _ _ Hrep Hrc) as Hrcb. pose proof (proj2 HW _ _ Hrep Hwc) as Hwcb.
  assert (Hgoto : forall pc', TI i pc' -> (Star i -> SI (n_weights s) (n_edges s) i pc') -> ph pc' < ph pc ->
    NInv (NState (n_radii s) (n_weights s) (n_edges s) (<[i := pc']> (n_thr s))) /\ npot (NState (n_radii s) (n_weights s) (n_edges s) (<[i := pc']> (n_thr s))) < npot s).
  { intros pc' A B D. by apply (ninv_update s i pc). }
  assert (Hrad : forall r, ltb r (wb (c i)) = false -> exists rad, (if shared then n_radii s !! c i else Some r) = Some rad /\ ltb rad (wb (c i)) = false).
  { intros r Hr. destruct shared; [by exists rc|by exists r]. }
  destruct pc as [|x d S b r|x S b r|x S b r|x S b r tl|x S b r tl|b|b|b|]; [..|done].
  - (* start *)
    rewrite Hrc. cbn [mbind option_bind]. destruct (lookup_lt_is_Some_2 lower i) as [lo Hlo]; [destruct Hlow as [-> _]; lia|].
    assert (Hroot : NInv (NState (n_radii s) (n_weights s) (n_edges s) (<[i := NNode (getRoot T) zero [] (no_edge inf) rc]> (n_thr s))) /\
      npot (NState (n_radii s) (n_weights s) (n_edges s) (<[i := NNode (getRoot T) zero [] (no_edge inf) rc]> (n_thr s))) < npot s).
    { apply Hgoto; [|done|cbn; unfold sz; rewrite root_rg; cbn; lia]. split; [split_and!; [by left|done|done|done]|]. split.
      - split; [apply root_node|]. cbn. intros j Hj Hcj. apply wt_zero; [done| |]; [|intros ->; done]. apply (Cov_lt (getRoot T)); [apply root_node|done].
      - split; [exists H; cbn; split; [exact (mi_height _ _ _ _ _ _ _ _ _ _ _ _ MI)|lia]|]. intros _. right. left. unfold Cov. rewrite root_rg. cbn.
        destruct (star_out i Hi). lia. }
    destruct bounded; cbn [mbind option_bind].
    + rewrite Hlo. cbn [mbind option_bind]. destruct (BoruvkaModel.leb ltb lo rc) eqn:EL; cbn [negb]; eexists; split; [done|apply Hroot|done|].
      apply Hgoto; [done| |cbn; lia]. intros HS. exfalso. assert (BoruvkaModel.leb ltb lo rc = true) as X; [|congruence]. apply (wleb_iff ltb).
      apply (w_trans ltb SW _ (wb (c i))); [|done]. unfold wb. rewrite (star_pair i HS). destruct (star_out i Hi). by apply (proj2 Hlow i (jstar i) lo).
    + eexists. split; [done|]. apply Hroot.
  - (* node *)
    destruct HTI as (HB & He & HH & HP). destruct (Hrad r) as (rad & Erad & Hradb); [apply HB|]. rewrite Erad. cbn [mbind option_bind]. eexists. split; [done|].
    destruct (BoruvkaModel.leb ltb d rad) eqn:EL.
    + apply Hgoto; [|done|cbn; lia]. split; [done|]. split; [apply He|]. done.
    + pose proof (sz_pos x (proj1 He)). destruct (pop_ok i S b r HB) as [H1 H2].
      * intros HSt. destruct (HP HSt) as [?|[HC|?]]; [by left| |by right]. exfalso. assert (BoruvkaModel.leb ltb d rad = true) as X; [|congruence]. apply (wleb_iff ltb).
        apply (w_trans ltb SW _ (wb (c i))); [|done]. unfold wb. rewrite (star_pair i HSt). apply (proj2 He); [done|]. by apply star_out.
      * apply Hgoto; [done| |cbn [ph]; lia]. intros _. unfold pop. by destruct S as [|[]].
  - (* left child *)
    destruct HTI as (HB & Hx & HH & HP). destruct (children x Hx) as (lc & rch & EL & ER & Hlc & Hrch & Esz & Hcov). rewrite EL. cbn [mbind option_bind].
    destruct (dist_node i lc Hi Hlc) as (d & Hd & _). rewrite Hd. cbn [mbind option_bind]. destruct (Hrad r) as (rad & Erad & Hradb); [apply HB|]. rewrite Erad. cbn [mbind option_bind].
    destruct HB as (HBo & Hr & HS & HK).
    destruct (consider_spec i lc b d rad Hi Hlc Hd Hradb HBo) as (t & o & Eo & Ht & Ho & Hst & Hkeep). rewrite Eo. cbn [mbind option_bind]. eexists. split; [done|].
    destruct o as [e|].
    + destruct (Ho e eq_refl) as [-> HBe]. apply Hgoto; [|done|cbn; lia]. split; [done|]. split; [done|]. split; [done|]. intros HSt.
      destruct (HP HSt) as [Hb|[HC|?]]; [by specialize (Hkeep HSt Hb)| |by right; right]. apply Hcov in HC as [HC|HC].
      * destruct (Hst HSt HC) as [?|[X|[? _]]]; [done| |done]. left. congruence.
      * right. left. by exists rch.
    + apply Hgoto; [|done|cbn; lia]. split; [done|]. split; [done|]. split; [done|]. split; [intros lc' Htl El'; assert (lc' = lc) as -> by congruence; by apply Ht|].
      intros HSt. destruct (HP HSt) as [Hb|[HC|?]]; [by left| |by right; right; right]. apply Hcov in HC as [HC|HC].
      * destruct (Hst HSt HC) as [->|[?|[_ ->]]]; [|done|by left]. right. left. split; [done|]. by exists lc.
      * right. right. left. by exists rch.
  - (* left atomic_min *)
    destruct HTI as ((HBo & Hr & HS & HK) & Hx & HH & HP). destruct shared.
    + rewrite Hrc. cbn [mbind option_bind]. eexists. split; [done|]. apply (ninv_update s i _ _ _ _ _ HI Hpc); try done.
      * apply wmin_rad; [done|done|]. intros _. by apply best_weight.
      * split; [done|]. split; [done|]. split; [done|]. split; [by intros ? ?|]. intros HSt. destruct (HP HSt) as [?|[?|?]]; auto.
      * cbn. lia.
    + eexists. split; [done|]. apply Hgoto; [|done|cbn; lia]. split; [|split; [done|split; [done|split; [by intros ? ?|]]]].
      * split_and!; [done|by apply best_weight|done|done].
      * intros HSt. destruct (HP HSt) as [?|[?|?]]; auto.
  - (* right child *)
    destruct HTI as (HB & Hx & HH & HLI & HP). destruct (children x Hx) as (lc & rch & EL & ER & Hlc & Hrch & Esz & Hcov). rewrite ER. cbn [mbind option_bind mjoin option_join].
    destruct (dist_node i rch Hi Hrch) as (d & Hd & _). rewrite Hd. cbn [mbind option_bind]. destruct (Hrad r) as (rad & Erad & Hradb); [apply HB|]. rewrite Erad. cbn [mbind option_bind].
    destruct HB as (HBo & Hr & HS & HK).
    destruct (consider_spec i rch b d rad Hi Hrch Hd Hradb HBo) as (t & o & Eo & Ht & Ho & Hst & Hkeep). rewrite Eo. cbn [mbind option_bind].
    destruct o as [e|].
    + destruct (Ho e eq_refl) as [-> HBe]. eexists. split; [done|]. apply Hgoto; [|done|cbn; lia]. split; [done|]. split; [done|]. split; [done|]. split; [done|]. intros HSt.
      destruct (HP HSt) as [Hb|[?|[(y & Ey & HC)|?]]]; [by specialize (Hkeep HSt Hb)|by right; left| |by right; right].
      assert (y = rch) as -> by congruence. destruct (Hst HSt HC) as [?|[X|[? _]]]; [done| |done]. left. congruence.
    + destruct (advance_ok i x S b r tl t Hi) as (pc & Epc & HTpc & Hph); try done.
      { intros y Htr Ey. assert (y = rch) as -> by congruence. by apply Ht. }
      { intros HSt. destruct (HP HSt) as [Hb|[?|[(y & Ey & HC)|?]]]; [by left|by right; left| |by right; right; right].
        assert (y = rch) as -> by congruence. destruct (Hst HSt HC) as [->|[?|[_ ->]]]; [|done|by left]. right. right. left. split; [done|]. by exists rch. }
      rewrite Epc. cbn [mbind option_bind]. eexists. split; [done|]. apply Hgoto; [done| |cbn [ph]; lia]. intros _.
      by eapply advance_SI.
  - (* right atomic_min *)
    destruct HTI as ((HBo & Hr & HS & HK) & Hx & HH & HLI & HP).
    assert (Hadv : forall r', ltb r' (wb (c i)) = false -> exists pc, advance T ltb dl dv cap i x S b r' tl false = Some pc /\ TI i pc /\ ph pc < 6 * (sz x + sumsz S) /\ SI (n_weights s) (n_edges s) i pc).
    { intros r' Hr'. destruct (advance_ok i x S b r' tl false Hi) as (pc & Epc & HTpc & Hph); try done.
      { intros HSt. destruct (HP HSt) as [?|[?|?]]; auto. }
      exists pc. split_and!; [done..|]. by eapply advance_SI. }
    destruct shared.
    + destruct (Hadv r Hr) as (pc & Epc & HTpc & Hph & HSpc). rewrite Hrc. cbn [mbind option_bind]. rewrite Epc. cbn [mbind option_bind]. eexists. split; [done|].
      apply (ninv_update s i _ _ _ _ _ HI Hpc); try done. apply wmin_rad; [done|done|]. intros _. by apply best_weight.
    + destruct (Hadv (EdgeModel.weight b)) as (pc & Epc & HTpc & Hph & HSpc); [by apply best_weight|]. rewrite Epc. cbn [mbind option_bind]. eexists. split; [done|]. by apply Hgoto.
  - (* read the component weight *)
    destruct HTI as [HBo HP]. rewrite Hwc. cbn [mbind option_bind]. eexists. split; [done|]. destruct (ltb (EdgeModel.weight b) inf && BoruvkaModel.leb ltb (EdgeModel.weight b) wc) eqn:EC.
    + apply Hgoto; [done|done|cbn; lia].
    + apply Hgoto; [done| |cbn; lia]. intros HSt. exfalso. rewrite (HP HSt) in EC. change (EdgeModel.weight (es i)) with (wb (c i)) in EC.
      rewrite (wb_inf _ Hrep) in EC. cbn [andb] in EC. unfold BoruvkaModel.leb in EC. by rewrite Hwcb in EC.
  - (* atomic_min_fetch *)
    destruct HTI as [HBo HP]. rewrite Hwc. cbn [mbind option_bind]. eexists. split; [done|].
    destruct (weights_min (n_weights s) (c i) wc (EdgeModel.weight b) HW Hwc) as [HW' HWm]; [intros _; by apply best_weight|].
    apply (ninv_update s i _ _ _ _ _ HI Hpc); try done.
    + by destruct (weq _ _ _).
    + intros HSt. assert (EdgeModel.weight b = wb (c i)) as Eb by (by rewrite (HP HSt)). rewrite Eb.
      assert (weq ltb (wmin ltb wc (wb (c i))) (wb (c i)) = true) as ->.
      { apply weq_true. split; [|by apply (wmin_le ltb SW)]. apply wmin_ge; [done|apply (sw_irrefl _ SW)]. }
      cbn. exists (wmin ltb wc (wb (c i))). split; [apply list_lookup_insert; by eapply lookup_lt_Some|]. by apply (wmin_le ltb SW).
    + cbn. destruct (weq _ _ _); cbn; lia.
  - (* store *)
    destruct HTI as [HBo HP]. unfold wr. destruct HE as [HEL HE]. rewrite (proj2 (Nat.ltb_lt _ _)) by (rewrite HEL; lia). cbn [mbind option_bind]. eexists. split; [done|].
    apply (ninv_update s i _ _ _ _ _ HI Hpc); try done.
    + split; [by rewrite insert_length|]. intros k q Hq. destruct (upd_cases _ _ _ _ _ Hq) as [(-> & -> & _)|[_ ?]]; [done|by apply HE].
    + intros k Hk. by rewrite list_lookup_insert_ne.
    + intros HSt. split; [exact (HSI HSt)|]. rewrite list_lookup_insert by lia. by rewrite (HP HSt).
    + cbn. lia.
Qed.

Lemma npc_done (pc : @npc W) : pc = NDone \/ pc <> NDone. Proof. destruct pc; auto. Qed.
(** After the kernel the weight of every component is that of its smallest edge, and the thread at its source has stored it. *)
Definition Found (ws : list W) (edges : list (dedge W)) : Prop :=
  WOK ws /\ EOK edges /\ (forall r, Rep r -> WLE ws r) /\ forall r, Rep r -> edges !! (best r).1 = Some (E (best r)).
Lemma search_ok radii : RadOK radii ->
  Kernel nstep nlive (NState radii (replicate n inf) (replicate n (no_edge inf)) (replicate n NStart)) (fun s => Found (n_weights s) (n_edges s)).
Proof.
  intros HR. apply (Kernel_inv _ _ _ _ NInv npot).
  - split_and!; cbn [n_radii n_weights n_edges n_thr]; [done| | |apply replicate_length|].
    + split; [apply replicate_length|]. intros r x Hr [-> _]%lookup_replicate. by apply (w_asym ltb SW), wb_inf.
    + split; [apply replicate_length|]. intros i b [-> _]%lookup_replicate. by left.
    + intros i pc [-> _]%lookup_replicate. done.
  - intros s t s' _. unfold BoruvkaModel.nstep, nlive. destruct (n_thr s !! t) as [pc|] eqn:Epc; [|done]. intros Hs. exists pc. split; [done|]. intros ->. cbn in Hs.
    by destruct (component labels t).
  - apply nstep_ok.
  - intros s (HRs & HW & HE & HL & HT) Hdead.
    assert (HD : forall r, Rep r -> SI (n_weights s) (n_edges s) (best r).1 NDone /\ c (best r).1 = r).
    { intros r Hr. destruct (best_spec r Hr) as [(H1 & H2 & H3 & H4) _]. split; [|done].
      destruct (lookup_lt_is_Some_2 (n_thr s) (best r).1) as [pc Hpc]; [by rewrite HL|].
      destruct (npc_done pc) as [->|Hpd]; [|exfalso; apply (Hdead (best r).1); by exists pc].
      apply (HT _ _ Hpc). unfold Star. by rewrite H3. }
    split; [done|]. split; [done|]. split; intros r Hr; destruct (HD r Hr) as [[H1 H2] Ec]; [by rewrite Ec in H1|]. rewrite H2. unfold es. by rewrite Ec.
Qed.
End Search.
