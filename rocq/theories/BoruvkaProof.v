(** One Boruvka round, the loop and the final renumbering. *)
From Verif Require Export BoruvkaSearch BoruvkaUpdate.
Local Open Scope nat_scope.

Lemma find_edges_weaken {V W : Type} (T : tree V) (ltb : W -> W -> bool) (zero inf : W) (dl : nat -> nat -> W) (dv : nat -> V -> W) (metric : nat -> nat -> W -> W) (cap : nat) (shared bounded : bool) par labels0 lower0
  (P1 P2 : list Z -> list (dedge W) -> list W -> Prop) : (forall l o w, P1 l o w -> P2 l o w) ->
  find_edges T ltb zero inf dl dv metric cap shared bounded par labels0 lower0 P1 -> find_edges T ltb zero inf dl dv metric cap shared bounded par labels0 lower0 P2.
Proof.
  intros HPP. unfold find_edges. apply Kernel_weaken. intros s1. cbn beta zeta. destruct (mapM _ _); [|done]. apply Kernel_weaken. intros s2. apply Kernel_weaken. intros s3.
  destruct (reset_component_edges _ _ _ _); [|done]. apply Kernel_weaken. intros s4. cbn beta zeta. destruct (if bounded then _ else _); [|done]. apply HPP.
Qed.
Lemma round_weaken {V W : Type} (T : tree V) (ltb : W -> W -> bool) (zero inf : W) (dl : nat -> nat -> W) (dv : nat -> V -> W) (metric : nat -> nat -> W -> W) (cap : nat) (shared bounded : bool) par st
  (P1 P2 : @mstate W -> Prop) : (forall s, P1 s -> P2 s) ->
  round T ltb zero inf dl dv metric cap shared bounded par st P1 -> round T ltb zero inf dl dv metric cap shared bounded par st P2.
Proof.
  intros HPP. unfold round. apply find_edges_weaken. intros l o w. apply Kernel_weaken. intros s5. apply Kernel_weaken. intros s6. apply HPP.
Qed.

Section Loop.
Context {V W : Type} (le : V -> V -> Prop) (vol : nat -> V) (perm : list nat) (T : tree V)
  (ltb : W -> W -> bool) (zero inf : W) (dl : nat -> nat -> W) (dv : nat -> V -> W) (metric : nat -> nat -> W -> W) (cap H : nat).
Context (MI : MstInput le vol perm T ltb zero inf dl dv metric cap H).
Variables shared bounded : bool.
Notation n := (length perm).
Notation P := (P perm).
Notation wt := (wt perm dl metric).
Notation lt := (plt ltb wt).
Notation SW := (mi_sw _ _ _ _ _ _ _ _ _ _ _ _ MI).
Notation VT := (mi_valid _ _ _ _ _ _ _ _ _ _ _ _ MI).
Notation n2 := (mi_two _ _ _ _ _ _ _ _ _ _ _ _ MI).
Notation NB := (mi_size _ _ _ _ _ _ _ _ _ _ _ _ MI).
Notation wsym := (wt_sym le vol perm T ltb zero inf dl dv metric cap H MI).
Notation winf := (wt_inf le vol perm T ltb zero inf dl dv metric cap H MI).
Notation PO := (plt_order ltb SW wt n NB wsym).

Variable par : list nat.
Hypothesis HP : forall p ch, p < 2 * n - 1 -> Child T p ch -> par !! ch = Some p.

(** ** reduceLabels *)
Section Labels.
Context (c : nat -> nat) (labels0 : list Z).
Hypothesis HLen : length labels0 = 2 * n - 1.
Hypothesis Hlab : forall i, i < n -> labels0 !! i = Some (Z.of_nat (c i)).
Definition Reduced (labels : list Z) : Prop :=
  length labels = 2 * n - 1 /\ (forall i, i < n -> labels !! i = Some (Z.of_nat (c i))) /\
  forall x, x < 2 * n - 1 -> exists z, labels !! x = Some z /\ forall i, i < n -> z = Z.of_nat (c i) -> forall j, Cov perm T x j -> c j = c i.
Lemma lstep_length m s t s' : lstep m par s t = Some s' -> length (ls_labels s') = length (ls_labels s).
Proof.
  unfold lstep. destruct (ls_pcs s !! t) as [pc|]; [|done]. cbn [mbind option_bind]. destruct pc as [i|i lab|p|]; [| | |done].
  - destruct (ls_labels s !! i); [|done]. cbn. intros [= <-]. done.
  - destruct (par !! i) as [p|]; [|done]. cbn. destruct (ls_labels s !! p); [|done]. cbn.
    destruct (_ =? _)%Z; [intros [= <-]; cbn; apply insert_length|]. destruct (negb _); intros [= <-]; done.
  - unfold wr. destruct (_ <? _); [|done]. cbn. intros [= <-]. cbn. apply insert_length.
Qed.
Lemma labels_ok : Kernel (lstep n par) llive (linit n labels0) (fun s => Reduced (ls_labels s)).
Proof.
  assert (HLab : forall k L, k < n -> labels0 !! k = Some L -> L <> indeterminate /\ L <> untouched).
  { intros k L Hk HL. rewrite Hlab in HL by done. injection HL as <-. unfold indeterminate, untouched. lia. }
  exists (n * (3 * n)). intros ts s He. destruct (reduce_ok le vol perm T VT n2 par HP labels0 HLen HLab ts s He) as (H1 & H2 & H3). split; [done|]. split.
  - intros t (pc & Hpc & Hne). destruct (H2 t pc Hpc Hne) as [s' E1]. by exists s'.
  - intros Hdead. assert (lall_done s) as HD.
    { intros t pc Hpc. destruct pc; [| | |done]; exfalso; apply (Hdead t); eexists; (split; [exact Hpc|done]). }
    specialize (H3 HD). split; [|split].
    + assert (length (ls_labels s) = length (ls_labels (linit n labels0))) as ->.
      { apply (execg_inv_only (lstep n par) (fun x => length (ls_labels x) = length (ls_labels (linit n labels0)))) with (s := linit n labels0) (ts := ts); [|done|done].
        intros x t y Hx Hs. rewrite <- Hx. by eapply lstep_length. }
      unfold linit. cbn [ls_labels]. rewrite app_length, take_length, replicate_length. lia.
    + intros i Hi. destruct (vt_all _ _ _ _ VT i) as (l & r & rp & HC); [lia|]. rewrite (H3 _ _ _ _ HC).
      destruct (leaf_case le vol perm T VT _ _ _ _ HC) as (-> & -> & _). { unfold isLeaf. rewrite (vt_size _ _ _ _ VT). by apply Nat.ltb_lt. }
      destruct (uni_spec labels0 n (lab_ex n labels0 HLen HLab) i i) as [[HU _]|[_ HU]]; [lia| |].
      * specialize (HU i ltac:(lia)). by rewrite <- HU, Hlab.
      * exfalso. apply (HU (Z.of_nat (c i))). intros k Hk. assert (k = i) as -> by lia. by apply Hlab.
    + intros x Hx. destruct (vt_all _ _ _ _ VT x Hx) as (l & r & rp & HC). exists (uni labels0 l r). split; [by apply (H3 _ _ _ _ HC)|].
      intros i Hi Ez j Hj. unfold Cov in Hj. rewrite (rg_ok le vol perm T VT n2 _ _ _ _ HC) in Hj. cbn in Hj. pose proof (Covers_range le vol perm T VT _ _ _ _ HC) as Hr.
      destruct (uni_spec labels0 n (lab_ex n labels0 HLen HLab) l r) as [[HU _]|[HU _]]; [lia| |rewrite HU in Ez; unfold indeterminate in Ez; lia].
      specialize (HU j Hj). rewrite Ez, Hlab in HU by lia. injection HU as HU. lia.
Qed.
End Labels.

(** ** The state between rounds *)
Record RI (st : @mstate W) (c : nat -> nat) (F : list (nat * nat)) : Prop := {
  ri_len : length (m_labels st) = 2 * n - 1;
  ri_lab : forall i, i < n -> m_labels st !! i = Some (Z.of_nat (c i));
  ri_c : forall i, i < n -> c i < n;
  ri_cc : forall i, i < n -> c (c i) = c i;
  ri_low : LowB ltb wt n c (m_lower st);
  ri_edges : length (m_edges st) = n - 1;
  ri_num : m_num st = length F;
  ri_comps : m_num st + comps n c = n;
  ri_conn : forall a b, a < n -> b < n -> Conn (InList F) a b <-> c a = c b;
  ri_proper : forall a b, (a, b) ∈ F -> a < n /\ b < n /\ a <> b;
  ri_norepeat : NoRepeat F;
  ri_kruskal : forall e, e ∈ F -> Kruskal n lt e;
  ri_written : forall k p, F !! k = Some p -> exists e, m_edges st !! k = Some e /\ w_source e = N.of_nat p.1 /\ w_target e = N.of_nat p.2 /\ weq ltb (w_weight e) (wt p) = true }.
Lemma two_comps (c : nat -> nat) : 2 <= comps n c -> exists i j, i < n /\ j < n /\ c i <> c j.
Proof.
  unfold comps. intros Hl. assert (NoDup (base.filter (fun i => c i = i) (seq 0 n))) as HD by (apply NoDup_filter, NoDup_seq).
  destruct (base.filter (fun i => c i = i) (seq 0 n)) as [|i [|j l]] eqn:E1; [cbn in Hl; lia|cbn in Hl; lia|].
  assert (i ∈ base.filter (fun i => c i = i) (seq 0 n)) as Hi by (rewrite E1; by left). assert (j ∈ base.filter (fun i => c i = i) (seq 0 n)) as Hj by (rewrite E1; right; by left).
  apply elem_of_list_filter in Hi as [Ci Hi%elem_of_seq], Hj as [Cj Hj%elem_of_seq]. exists i, j. split_and!; [lia|lia|]. rewrite Ci, Cj. intros ->.
  apply NoDup_cons in HD as [HD _]. apply HD. by left.
Qed.
Lemma one_comp (c : nat -> nat) : (forall i, i < n -> c i < n) -> (forall i, i < n -> c (c i) = c i) -> comps n c <= 1 -> forall a b, a < n -> b < n -> c a = c b.
Proof.
  intros Hc Hcc Hl a b Ha Hb. unfold comps in Hl.
  assert (Hin : forall i, i < n -> c i ∈ base.filter (fun i => c i = i) (seq 0 n)). { intros i Hi. apply elem_of_list_filter. split; [by apply Hcc|]. apply elem_of_seq. specialize (Hc i Hi). lia. }
  pose proof (Hin a Ha) as H1. pose proof (Hin b Hb) as H2. destruct (base.filter (fun i => c i = i) (seq 0 n)) as [|x [|y l]]; [by apply elem_of_nil in H1| |cbn in Hl; lia].
  apply elem_of_list_singleton in H1, H2. congruence.
Qed.
(** What the search leaves: the labels are propagated, every component has its smallest outgoing edge. *)
Definition Found (c : nat -> nat) (labels : list Z) (out : list (dedge W)) (lower : list W) : Prop :=
  length labels = 2 * n - 1 /\ (forall i, i < n -> labels !! i = Some (Z.of_nat (c i))) /\ OutOK ltb wt n c out /\ LowB ltb wt n c lower.
Lemma find_edges_ok (c : nat -> nat) labels0 lower0 : length labels0 = 2 * n - 1 -> (forall i, i < n -> labels0 !! i = Some (Z.of_nat (c i))) ->
  (forall i, i < n -> c i < n) -> (forall i, i < n -> c (c i) = c i) -> LowB ltb wt n c lower0 -> 2 <= comps n c ->
  find_edges T ltb zero inf dl dv metric cap shared bounded par labels0 lower0 (Found c).
Proof.
  intros HLn HLb Hc Hcc Hlow H2. pose proof (two_comps c H2) as Htwo. unfold find_edges. rewrite (vt_size _ _ _ _ VT).
  eapply Kernel_weaken; [|apply (labels_ok c labels0 HLn HLb)]. intros s1 (HLn1 & HLb1 & Hnode). cbn beta zeta. set (labels := ls_labels s1) in *.
  destruct (radius_progs le vol perm T ltb zero inf dl dv metric cap H MI c Hc Hcc Htwo labels HLb1 Hnode) as (progs & -> & Hprogs).
  eapply Kernel_weaken; [|apply (radii_ok le vol perm T ltb zero inf dl dv metric cap H MI c Hc Hcc Htwo labels HLb1 Hnode progs Hprogs)]. intros s2 HR.
  eapply Kernel_weaken; [|apply (search_ok le vol perm T ltb zero inf dl dv metric cap H MI c Hc Hcc Htwo labels HLb1 Hnode shared bounded lower0 Hlow _ HR)].
  intros s3 (HW & HE & HWle & Hstar). cbn beta.
  assert (Hws : length (n_weights s3) = n /\ forall r, Rep n c r -> exists x, n_weights s3 !! r = Some x /\ weq ltb x (wt (best n lt c r)) = true).
  { split; [apply HW|]. intros r Hr. destruct (HWle r Hr) as (x & Hx & Hle). exists x. split; [done|]. apply weq_true. split; [by apply (proj2 HW)|done]. }
  destruct (reset_ok ltb SW inf wt n NB wsym winf c Hc Hcc Htwo labels HLb1 _ _ Hws HE Hstar) as (es & -> & Hred).
  eapply Kernel_weaken; [|apply (reduce_edges_ok ltb SW inf wt n NB wsym winf c Hc Hcc Htwo labels HLb1 _ _ Hws HE Hstar es Hred)].
  intros s4 Hout. cbn beta zeta. set (out := e_edges s4) in *.
  assert (exists lower', (if bounded then update_lower_bounds ltb labels lower0 out else Some lower0) = Some lower' /\ LowB ltb wt n c lower') as (lower' & -> & Hlow').
  { destruct bounded; [|by exists lower0]. by apply (lower_ok ltb SW wt n NB wsym c Hc Hcc Htwo labels HLb1 out Hout). }
  done.
Qed.
(** The state after a round, from what its kernels leave. *)
Lemma ri_next st c F order labels lower edges num : RI st c F -> 2 <= comps n c -> NoDup order -> (forall r, r ∈ order <-> Adds n lt c r) ->
  length labels = 2 * n - 1 -> (forall i, i < n -> labels !! i = Some (Z.of_nat (fin n lt c (c i)))) -> LowB ltb wt n c lower ->
  num = m_num st + length order -> length edges = n - 1 -> take (m_num st) edges = take (m_num st) (m_edges st) ->
  (forall k r, order !! k = Some r -> exists e, edges !! (m_num st + k) = Some e /\ IsEdge ltb wt n c r e) ->
  RI (MState labels lower edges num) (c' n lt c) (F' n lt c F order) /\ 2 * comps n (c' n lt c) <= comps n c /\ 1 <= comps n (c' n lt c).
Proof.
  intros [HLn HLb Hc Hcc Hlow HEL Hnum Hcomps Hconn Hprop HNR HK HWr] H2 HD HO HL6 HLb6 Hlow' HN5 HE5 HTk HW5. pose proof (two_comps c H2) as Htwo.
  pose proof (comps_split n lt PO c Hc Hcc Htwo order HD HO) as Hsplit.
  split; [|split; [by apply (comps_half n lt PO c Hc Hcc Htwo)|by apply (comps_pos n lt PO c Hc Hcc Htwo)]].
  constructor; cbn [m_labels m_lower m_edges m_num].
  - lia.
  - exact HLb6.
  - apply (c'_lt n lt PO c Hc Hcc Htwo).
  - apply (c'_idem n lt PO c Hc Hcc Htwo).
  - split; [apply Hlow'|]. intros i j b Hi Hj Hne. apply Hlow'; [done..|]. intros E1. apply Hne. unfold c'. by rewrite E1.
  - done.
  - unfold F'. rewrite app_length, fmap_length. lia.
  - lia.
  - apply (conn_round n lt PO c Hc Hcc Htwo F order Hconn Hprop HO).
  - apply (F'_proper n lt PO c Hc Hcc Htwo F order Hprop HO).
  - by apply (norepeat_round n lt PO c Hc Hcc Htwo F order Hconn Hprop HO).
  - intros e [He|He]%elem_of_app; [by apply HK|]. apply elem_of_list_fmap in He as (r & -> & [Hr _]%HO). by apply (added_kruskal n lt PO c Hc Hcc Htwo).
  - intros k p Hk. unfold F' in Hk. apply lookup_app_Some in Hk as [Hk|[Hkl Hk]].
    + destruct (HWr k p Hk) as (e & He & Hrest). exists e. split; [|done]. pose proof (lookup_lt_Some _ _ _ Hk). rewrite <- (lookup_take _ (m_num st)) by lia. rewrite HTk. by rewrite lookup_take by lia.
    + rewrite list_lookup_fmap in Hk. destruct (order !! (k - length F)) as [r|] eqn:Er; [|done]. injection Hk as <-. destruct (HW5 _ _ Er) as (e & He & H1). exists e. split; [|exact H1].
      rewrite <- He. f_equal. lia.
Qed.

Lemma round_ok st c F : RI st c F -> 2 <= comps n c ->
  round T ltb zero inf dl dv metric cap shared bounded par st (fun st' => exists c' F', RI st' c' F' /\ 2 * comps n c' <= comps n c /\ 1 <= comps n c').
Proof.
  intros HRI H2. pose proof HRI as [HLn HLb Hc Hcc Hlow HEL Hnum Hcomps Hconn Hprop HNR HK HWr]. pose proof (two_comps c H2) as Htwo. unfold round. rewrite (vt_size _ _ _ _ VT).
  eapply find_edges_weaken; [|by apply (find_edges_ok c)]. intros labels out lower' (HLn1 & HLb1 & Hout & Hlow').
  eapply Kernel_weaken; [|apply (new_edges_ok ltb SW wt n NB wsym c Hc Hcc Htwo labels HLb1 out Hout _ _ Hcomps HEL)].
  intros s5 (order & HD & HO & HN5 & HE5 & HTk & HW5). cbn beta.
  eapply Kernel_weaken; [|apply (new_labels_ok ltb SW wt n NB wsym c Hc Hcc Htwo labels HLb1 out Hout _ _ Hcomps HEL); lia].
  intros s6 [HL6 HLb6]. exists (c' n lt c), (F' n lt c F order). apply (ri_next st); auto. lia.
Qed.

Lemma loop_ok fuel : forall st c F (post : mstate -> Prop), RI st c F -> 2 <= comps n c < 2 ^ S fuel ->
  (forall st c F, RI st c F -> comps n c = 1 -> post st) -> boruvka T ltb zero inf dl dv metric cap shared bounded fuel par st post.
Proof.
  induction fuel as [|fuel IH]; intros st c F post HRI Hcomps Hpost; [cbn in Hcomps; lia|]. cbn [boruvka]. eapply round_weaken; [|apply (round_ok st c F HRI); lia].
  intros st' (c' & F' & HRI' & Hhalf & Hpos). rewrite (vt_size _ _ _ _ VT). pose proof (ri_comps _ _ _ HRI') as Hc'. destruct (Z.leb_spec (Z.of_nat n - Z.of_nat (m_num st')) 1) as [L|L].
  - apply (Hpost _ _ _ HRI'). lia.
  - apply (IH st' c' F'); [done| |done]. rewrite Nat.pow_succ_r' in Hcomps. lia.
Qed.
End Loop.

Section Weaken.
Context {V W : Type} (T : tree V) (ltb : W -> W -> bool) (zero inf : W) (dl : nat -> nat -> W) (dv : nat -> V -> W) (metric : nat -> nat -> W -> W) (cap : nat) (shared bounded : bool).
Lemma boruvka_weaken fuel par : forall st (P1 P2 : @mstate W -> Prop), (forall s, P1 s -> P2 s) ->
  boruvka T ltb zero inf dl dv metric cap shared bounded fuel par st P1 -> boruvka T ltb zero inf dl dv metric cap shared bounded fuel par st P2.
Proof.
  induction fuel as [|fuel IH]; intros st P1 P2 HPP; [done|]. cbn [boruvka]. apply round_weaken. intros s. destruct (_ <=? _)%Z; [apply HPP|by apply IH].
Qed.
Lemma mst_weaken fuel order par0 garbage edges0 (P1 P2 : list (wedge W) -> Prop) : (forall es, P1 es -> P2 es) ->
  mst T ltb zero inf dl dv metric cap shared bounded fuel order par0 garbage edges0 P1 -> mst T ltb zero inf dl dv metric cap shared bounded fuel order par0 garbage edges0 P2.
Proof.
  intros HPP. unfold mst. destruct (findParents _ _ _); [|done]. apply boruvka_weaken. intros st. destruct (mapM _ _); [apply HPP|done].
Qed.
End Weaken.

(** ** From leaf positions to user indices *)
Section Relabel.
Context (perm : list nat).
Hypothesis Hperm : perm ≡ₚ seq 0 (length perm).
Notation n := (length perm).
Definition ren (p : nat * nat) : nat * nat := (P perm p.1, P perm p.2).
Definition pos (a : nat) : nat := default 0 (fst <$> list_find (a =.) perm).
Lemma pos_spec a : a < n -> pos a < n /\ P perm (pos a) = a.
Proof.
  intros Ha. assert (a ∈ perm) as Hin by (rewrite Hperm; apply elem_of_seq; lia). unfold pos. destruct (list_find_elem_of (a =.) perm a Hin eq_refl) as [[i x] E1].
  rewrite E1. cbn. apply list_find_Some in E1 as (E2 & -> & _). split; [by eapply lookup_lt_Some|]. unfold P. by rewrite E2.
Qed.
Lemma ren_lt i : i < n -> P perm i < n.
Proof.
  intros Hi. destruct (lookup_lt_is_Some_2 perm i Hi) as [x Ex]. unfold P. rewrite Ex. cbn. apply elem_of_list_lookup_2 in Ex. rewrite Hperm in Ex. apply elem_of_seq in Ex. lia.
Qed.
Lemma ren_inj i j : i < n -> j < n -> P perm i = P perm j -> i = j.
Proof.
  intros Hi Hj. destruct (lookup_lt_is_Some_2 perm i Hi) as [x Ex]. destruct (lookup_lt_is_Some_2 perm j Hj) as [y Ey]. unfold P. rewrite Ex, Ey. cbn. intros ->.
  apply (NoDup_lookup perm i j y); [rewrite Hperm; apply NoDup_seq|done|done].
Qed.
Lemma total_ext (v1 v2 : nat -> nat -> Q) (S : list (nat * nat)) : (forall e : nat * nat, e ∈ S -> Qeq (v1 e.1 e.2) (v2 e.1 e.2)) -> Qeq (total_weight v1 S) (total_weight v2 S).
Proof.
  unfold total_weight. induction S as [|e S IH]; intros HS; [done|]. cbn [foldr]. rewrite (HS e) by (by left). rewrite IH; [done|]. intros. apply HS. by right.
Qed.
Lemma total_map (v : nat -> nat -> Q) (f : nat * nat -> nat * nat) S : total_weight v (f <$> S) = total_weight (fun a b => v (f (a, b)).1 (f (a, b)).2) S.
Proof. unfold total_weight. induction S as [|e S IH]; [done|]. cbn [foldr fmap list_fmap]. rewrite <- surjective_pairing. f_equal. exact IH. Qed.
Lemma spans_map (f g : nat -> nat) S : (forall i, i < n -> f i < n) -> (forall i j, i < n -> j < n -> f i = f j -> i = j) -> (forall a, a < n -> g a < n /\ f (g a) = a) ->
  Spans n S -> Spans n ((fun p => (f p.1, f p.2)) <$> S).
Proof.
  intros Hf Hi Hg [HP HC]. split.
  - intros a b Hab. apply elem_of_list_fmap in Hab as ([x y] & E1 & Hxy). injection E1 as -> ->. destruct (HP x y Hxy) as (Hx & Hy & Hne). cbn. split_and!; auto.
  - assert (Hm : forall x y, Conn (InList S) x y -> Conn (InList ((fun p => (f p.1, f p.2)) <$> S)) (f x) (f y)).
    { intros x y Hxy. induction Hxy as [x y Hxy|x|x y _ IH|x y z _ IH1 _ IH2]; [|apply conn_refl|by apply conn_sym|by eapply conn_trans].
      apply conn_step. unfold InList in *. apply elem_of_list_fmap. by exists (x, y). }
    intros a b Ha Hb. destruct (Hg a Ha) as [Hga <-], (Hg b Hb) as [Hgb <-]. by apply Hm, HC.
Qed.
Lemma mst_rename (v : nat -> nat -> Q) F : MinimumSpanningTree n (fun i j => v (P perm i) (P perm j)) F -> MinimumSpanningTree n v (ren <$> F).
Proof.
  intros [[HS HL] HM]. split; [split; [|by rewrite fmap_length]|].
  - apply (spans_map (P perm) pos); [apply ren_lt|apply ren_inj|apply pos_spec|done].
  - intros S HSS. assert (Spans n ((fun p => (pos p.1, pos p.2)) <$> S)) as HS'.
    { apply (spans_map pos (P perm)); [apply pos_spec| |intros i Hi|done].
      - intros i j Hi Hj E1. rewrite <- (proj2 (pos_spec i Hi)), <- (proj2 (pos_spec j Hj)). by rewrite E1.
      - split; [by apply ren_lt|]. apply ren_inj; [apply pos_spec, ren_lt, Hi|done|]. apply pos_spec, ren_lt, Hi. }
    specialize (HM _ HS'). unfold ren. rewrite total_map in *. cbn [fst snd] in *. eapply Qle_trans; [exact HM|]. apply Qle_lteq. right. apply total_ext.
    intros [a b] Hab. destruct (proj1 HSS a b Hab) as (Ha & Hb & _). cbn. rewrite (proj2 (pos_spec a Ha)), (proj2 (pos_spec b Hb)). reflexivity.
Qed.
End Relabel.

(** ** The whole computation *)
Section Final.
Context {V W : Type} (le : V -> V -> Prop) (vol : nat -> V) (perm : list nat) (T : tree V)
  (ltb : W -> W -> bool) (zero inf : W) (dl : nat -> nat -> W) (dv : nat -> V -> W) (metric : nat -> nat -> W -> W) (cap H : nat).
Context (MI : MstInput le vol perm T ltb zero inf dl dv metric cap H).
Notation n := (length perm).
Notation wt := (wt perm dl metric).
Notation lt := (plt ltb wt).
Notation SW := (mi_sw _ _ _ _ _ _ _ _ _ _ _ _ MI).
Notation VT := (mi_valid _ _ _ _ _ _ _ _ _ _ _ _ MI).
Notation n2 := (mi_two _ _ _ _ _ _ _ _ _ _ _ _ MI).
Notation NB := (mi_size _ _ _ _ _ _ _ _ _ _ _ _ MI).
Notation Hperm := (mi_perm _ _ _ _ _ _ _ _ _ _ _ _ MI).
Notation wsym := (wt_sym le vol perm T ltb zero inf dl dv metric cap H MI).
Notation PO := (plt_order ltb SW wt n NB wsym).

Definition ends (e : wedge W) : nat * nat := (N.to_nat (w_source e), N.to_nat (w_target e)).
(** The result: the images of a list of tree edges between leaf positions. *)
Definition Result (es : list (wedge W)) : Prop := exists F,
  NoRepeat F /\ length F = n - 1 /\ Spans n F /\ (forall e, e ∈ F -> Kruskal n lt e) /\
  ends <$> es = ren perm <$> F /\
  forall e, e ∈ es -> weq ltb (w_weight e) (pair_weight dl metric (ends e).1 (ends e).2) = true.

Lemma init_ok edges0 garbage : length edges0 = n - 1 -> length garbage = n - 1 ->
  RI perm ltb dl metric (MState (map Z.of_nat (seq 0 n) ++ garbage) (replicate n zero) edges0 0) (fun i => i) [].
Proof.
  intros HE HG. assert (comps n (fun i => i) = n) as Hcomps.
  { unfold comps. rewrite <- (seq_length n 0) at 2. f_equal. generalize (seq 0 n). induction l as [|x l IH]; [done|]. rewrite filter_cons_True by done. by rewrite IH. }
  constructor; cbn [m_labels m_lower m_edges m_num]; auto.
  - rewrite app_length, map_length, seq_length. pose proof n2. lia.
  - intros i Hi. rewrite lookup_app_l by (rewrite map_length, seq_length; lia). change (map Z.of_nat (seq 0 n)) with (Z.of_nat <$> seq 0 n). rewrite list_lookup_fmap, lookup_seq_lt by lia. done.
  - split; [apply replicate_length|]. intros i j b Hi Hj Hne [-> _]%lookup_replicate. by apply (wt_zero le vol perm T ltb zero inf dl dv metric cap H MI).
  - intros a b Ha Hb. split; [|intros ->; apply conn_refl]. intros Hc. pose proof (conn_closed (InList []) (fun x => x = b)) as HX.
    apply (HX) with (a := a) (b := b); [|done|done]. intros x y Hxy. by apply elem_of_nil in Hxy.
  - intros a b Hab. by apply elem_of_nil in Hab.
  - intros i j e f He. done.
  - intros e He. by apply elem_of_nil in He.
  - intros k p Hk. done.
Qed.

Lemma mst_ok shared bounded fuel order par0 garbage edges0 : Nat.log2 n <= fuel -> order ≡ₚ seq 0 (2 * (n - 1)) -> length par0 = 2 * n - 1 -> length garbage = n - 1 -> length edges0 = n - 1 ->
  mst T ltb zero inf dl dv metric cap shared bounded fuel order par0 garbage edges0 Result.
Proof.
  intros Hf HO HP0 HG HE. unfold mst. destruct (findParents_ok le vol perm T VT n2 order par0 HO HP0) as (par & -> & _ & HP & _). rewrite (vt_size _ _ _ _ VT).
  pose proof (init_ok edges0 garbage HE HG) as HI. pose proof (ri_comps _ _ _ _ _ _ _ HI) as Hc0. cbn [m_num] in Hc0. cbn [Nat.add] in Hc0.
  eapply (loop_ok le vol perm T ltb zero inf dl dv metric cap H MI shared bounded par HP fuel _ _ _ _ HI).
  { rewrite Hc0. split; [apply n2|]. destruct (Nat.log2_spec n) as [_ Hl]; [pose proof n2; lia|]. eapply Nat.lt_le_trans; [exact Hl|]. apply Nat.pow_le_mono_r; lia. }
  intros st c F HRI H1. destruct HRI as [HLn HLb Hc Hcc Hlow HEL Hnum Hcomps Hconn Hprop HNR HK HWr].
  assert (length F = n - 1) as HFl by lia.
  assert (exists es, mapM (finalize_edge T) (m_edges st) = Some es /\ length es = n - 1 /\ forall k e, es !! k = Some e -> exists p e0, F !! k = Some p /\ m_edges st !! k = Some e0 /\ ends e = ren perm p /\ weq ltb (w_weight e) (wt p) = true) as (es & Ees & Hlen & Hes).
  { destruct (mapM (finalize_edge T) (m_edges st)) as [es|] eqn:E1.
    - exists es. split; [done|]. apply mapM_Some_1 in E1. split; [rewrite <- HEL; symmetry; by eapply Forall2_length|]. intros k e Hk.
      destruct (Forall2_lookup_r _ _ _ _ _ E1 Hk) as (e0 & He0 & Hfin). pose proof (lookup_lt_Some _ _ _ He0). destruct (lookup_lt_is_Some_2 F k) as [p Hp]; [lia|].
      exists p, e0. split; [done|]. split; [done|]. destruct (HWr k p Hp) as (e0' & E2 & E3 & E4 & E5). rewrite He0 in E2. injection E2 as <-. destruct p as [p1 p2]. cbn [fst snd] in *.
      destruct (Hprop p1 p2) as (Hp1 & Hp2 & _); [by eapply elem_of_list_lookup_2|].
      unfold finalize_edge in Hfin. rewrite E3, E4, !Nat2N.id in Hfin. rewrite !(value le vol perm T ltb zero inf dl dv metric cap H MI) in Hfin by done. cbn in Hfin. injection Hfin as <-.
      cbn [w_weight]. split; [|done]. unfold ends, ren. cbn. by rewrite !Nat2N.id.
    - exfalso. apply mapM_None_1 in E1. apply Exists_exists in E1 as (e0 & He0 & Hfin). apply elem_of_list_lookup in He0 as (k & Hk). pose proof (lookup_lt_Some _ _ _ Hk).
      destruct (lookup_lt_is_Some_2 F k) as [[p1 p2] Hp]; [lia|]. destruct (HWr k _ Hp) as (e0' & E2 & E3 & E4 & E5). rewrite Hk in E2. injection E2 as <-. cbn [fst snd] in *.
      destruct (Hprop p1 p2) as (Hp1 & Hp2 & _); [by eapply elem_of_list_lookup_2|].
      unfold finalize_edge in Hfin. rewrite E3, E4, !Nat2N.id in Hfin. rewrite !(value le vol perm T ltb zero inf dl dv metric cap H MI) in Hfin by done. done. }
  rewrite Ees. exists F. split; [done|]. split; [done|]. split; [split; [done|]|split; [done|split]].
  - intros a b Ha Hb. apply Hconn; [done..|]. eapply one_comp; eauto; lia.
  - apply list_eq. intros k. rewrite !list_lookup_fmap. destruct (es !! k) as [e|] eqn:Ek.
    + destruct (Hes k e Ek) as (p & e0 & -> & _ & Ee & _). cbn. by rewrite Ee.
    + apply lookup_ge_None in Ek. rewrite (lookup_ge_None_2 F k) by lia. done.
  - intros e He. apply elem_of_list_lookup in He as (k & Hk). destruct (Hes k e Hk) as ([p1 p2] & e0 & _ & _ & Ee & Hw). rewrite Ee. exact Hw.
Qed.

Lemma result_mst es (val : W -> Q) : (forall x y, ltb y x = false -> (val x <= val y)%Q) -> (0 <= val zero)%Q -> Result es ->
  MinimumSpanningTree n (fun a b => val (pair_weight dl metric a b)) (ends <$> es).
Proof.
  intros Hmono Hz (F & HNR & HL & HSp & HK & -> & _). apply (mst_rename perm Hperm). change (fun i j => val (pair_weight dl metric (P perm i) (P perm j))) with (fun i j => val (wt (i, j))).
  set (val2 := fun x => val (wmax ltb zero x)).
  assert (Hm2 : forall x y, ltb y x = false -> (val2 x <= val2 y)%Q).
  { intros x y Hyx. unfold val2. apply Hmono. unfold wmax. destruct (ltb zero x) eqn:E1, (ltb zero y) eqn:E2; try done.
    - by rewrite (w_lt_le ltb SW zero x y) in E2.
    - by apply (w_asym ltb SW).
    - apply (sw_irrefl _ SW). }
  assert (Hz2 : forall x, ltb x zero = false -> (val2 x == val x)%Q).
  { intros x Hx. unfold val2, wmax. destruct (ltb zero x) eqn:E1; [reflexivity|]. apply Qle_antisym; by apply Hmono. }
  assert (Heq : forall p, InN n p -> (val2 (wt (sort p)) == val (wt p))%Q).
  { intros p Hp. pose proof (w_sort ltb SW wt n NB wsym p Hp) as E1. apply weq_true in E1 as [E1 E2].
    rewrite <- (Hz2 (wt p)). { apply Qle_antisym; by apply Hm2. }
    destruct p as [x y], Hp as (Hx & Hy & Hxy). by apply (wt_zero le vol perm T ltb zero inf dl dv metric cap H MI). }
  assert (MinimumSpanningTree n (fun i j => val2 (wt (sort (i, j)))) F) as [HS HM].
  { apply (kruskal_norepeat_mst n lt PO); try done.
    - intros a b Ha Hb. unfold val2. eapply Qle_trans; [exact Hz|]. apply Hmono. unfold wmax. destruct (ltb zero (wt (sort (a, b)))) eqn:E; [by apply (w_asym ltb SW)|apply (sw_irrefl _ SW)].
    - intros a b. unfold sort. cbn [fst snd]. by rewrite Nat.min_comm, Nat.max_comm.
    - intros [a b] [x y] Hlt. cbn [fst snd]. apply Hm2. unfold plt, dedge_lt in Hlt. unfold edge_of, mk_edge in Hlt. cbn [EdgeModel.weight] in Hlt.
      destruct (weq ltb (wt (sort (a, b))) (wt (sort (x, y)))) eqn:E1; cbn [negb] in Hlt; [apply weq_true in E1 as [_ E1]; exact E1|by apply (w_asym ltb SW)]. }
  split; [done|]. intros S HSS. specialize (HM S HSS).
  assert (forall S, Spans n S -> (total_weight (fun i j => val2 (wt (sort (i, j)))) S == total_weight (fun i j => val (wt (i, j))) S)%Q) as HT.
  { intros S' [HP' _]. apply total_ext. intros [a b] Hab. cbn [fst snd]. apply Heq. exact (HP' a b Hab). }
  rewrite <- (HT F HSp), <- (HT S HSS). exact HM.
Qed.
End Final.
