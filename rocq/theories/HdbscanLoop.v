(** The rounds in mode HDBSCAN: sided parents of the edges and parents of the vertices. *)
From Verif Require Export HdbscanUpdate HdbscanTree.
From Verif Require Import KernelAlgProof.
Local Open Scope nat_scope.

(** the comparison of stored edges is the order of the pairs *)
Section Wedge.
Context {W : Type} (ltb : W -> W -> bool) (SW : StrictWeak ltb) (w : nat * nat -> W) (n : nat).
Hypothesis NB : (N.of_nat n <= 2 ^ 31)%N.
Hypothesis wsym : forall i j, i < n -> j < n -> i <> j -> weq ltb (w (i, j)) (w (j, i)) = true.
Definition Stored (e : wedge W) (p : nat * nat) : Prop := w_source e = N.of_nat p.1 /\ w_target e = N.of_nat p.2 /\ weq ltb (w_weight e) (w p) = true.
Lemma ltb_congr a a' b b' : weq ltb a a' = true -> weq ltb b b' = true -> ltb a b = ltb a' b'.
Proof.
  intros [A B]%weq_true [C D]%weq_true. apply eq_true_iff_eq. split; intros H.
  - apply (w_le_lt ltb SW _ a); [done|]. by apply (w_lt_le ltb SW _ b).
  - apply (w_le_lt ltb SW _ a'); [done|]. by apply (w_lt_le ltb SW _ b').
Qed.
Lemma wedge_plt e f p q : InN n p -> InN n q -> Stored e p -> Stored f q -> wedge_lt ltb e f = plt ltb w p q.
Proof.
  intros Hp Hq (E1 & E2 & E3) (F1 & F2 & F3). pose proof (w_sort ltb SW w n NB wsym p Hp) as WP. pose proof (w_sort ltb SW w n NB wsym q Hq) as WQ.
  assert (weq ltb (w_weight e) (w (sort p)) = true) as Ee by (by apply (weq_trans ltb SW _ (w p))). assert (weq ltb (w_weight f) (w (sort q)) = true) as Ef by (by apply (weq_trans ltb SW _ (w q))).
  pose proof (sort_N ltb w n NB wsym p Hp) as (P1 & P2 & P3). pose proof (sort_N ltb w n NB wsym q Hq) as (Q1 & Q2 & Q3).
  apply eq_true_iff_eq. unfold plt, edge_of. rewrite C28_order by (try done; unfold is_vertex; lia). unfold LexLess. rewrite <- !(ltb_congr _ _ _ _ Ee Ef), <- !(ltb_congr _ _ _ _ Ef Ee).
  unfold wedge_lt. rewrite E1, E2, F1, F2. destruct p as [a b], q as [d g]. unfold sort in *. cbn [fst snd] in *. destruct Hp as (? & ? & ?), Hq as (? & ? & ?). cbn [fst snd] in *.
  destruct (weq ltb (w_weight e) (w_weight f)) eqn:Ew; cbn [negb].
  - apply weq_true in Ew as [-> ->]. destruct (N.eqb_spec (N.min (N.of_nat a) (N.of_nat b)) (N.min (N.of_nat d) (N.of_nat g))) as [Em|Em]; cbn [negb]; rewrite N.ltb_lt.
    + split; [intros ?; right; split; [done|]; split; [done|]; lia|]. intros [?|(_ & _ & ?)]; [done|]. lia.
    + split; [intros ?; right; split; [done|]; split; [done|]; lia|]. intros [?|(_ & _ & ?)]; [done|]. lia.
  - split; [by left|]. intros [?|(G1 & G2 & _)]; [done|]. assert (weq ltb (w_weight e) (w_weight f) = true) by (by apply weq_true). congruence.
Qed.
End Wedge.

Section Loop.
Context {V W : Type} (le : V -> V -> Prop) (vol : nat -> V) (perm : list nat) (T : tree V)
  (ltb : W -> W -> bool) (zero inf : W) (dl : nat -> nat -> W) (dv : nat -> V -> W) (metric : nat -> nat -> W -> W) (cap H : nat).
Context (MI : MstInput le vol perm T ltb zero inf dl dv metric cap H).
Variables shared bounded : bool.
Notation n := (length perm).
Hypothesis NB30 : (N.of_nat n <= 2 ^ 30)%N.
Notation P := (P perm).
Notation wt := (wt perm dl metric).
Notation lt := (plt ltb wt).
Notation SW := (mi_sw _ _ _ _ _ _ _ _ _ _ _ _ MI).
Notation VT := (mi_valid _ _ _ _ _ _ _ _ _ _ _ _ MI).
Notation n2 := (mi_two _ _ _ _ _ _ _ _ _ _ _ _ MI).
Notation NB := (mi_size _ _ _ _ _ _ _ _ _ _ _ _ MI).
Notation wsym := (wt_sym le vol perm T ltb zero inf dl dv metric cap H MI).
Notation PO := (plt_order ltb SW wt n NB wsym).
Notation stage := (stage n lt).
Notation B := (B n lt).
Notation RI := (RI perm ltb dl metric).

Variable par : list nat.
Hypothesis HP : forall p ch, p < 2 * n - 1 -> Child T p ch -> par !! ch = Some p.

(** [p] was chosen in round [j] *)
Definition Chosen (j : nat) (p : nat * nat) : Prop := 0 < j /\ exists v, v < n /\ SamePair (B (j - 1) v) p.
(** the sided parent of an edge [p] of round [j] *)
Definition Sided (F : list (nat * nat)) (j : nat) (p : nat * nat) (z : Z) : Prop := exists al a,
  F !! al = Some a /\ SamePair (B j p.1) a /\
  z = if lt p a then (2 * Z.of_nat al + (if Nat.eqb (stage j a.1) (stage j p.1) then 1 else 0))%Z else (-3 - Z.of_nat al)%Z.
Record HI (st : @dstate W) (k : nat) (F : list (nat * nat)) : Prop := {
  hi_ri : RI (d_m st) (stage k) F;
  hi_two : forall i, i < k -> 2 <= comps n (stage i);
  hi_map : length (d_map st) = n;
  hi_sided : length (d_sided st) = n - 1;
  hi_parents : length (d_parents st) = 2 * n - 1;
  hi_later : d_later st = (0 <? k);
  hi_start : d_start st <= d_end st;
  hi_end : d_end st = length F;
  hi_level : forall e p, F !! e = Some p -> exists j, Chosen j p /\ j <= k /\ (d_start st <= e -> j = k) /\ (e < d_start st -> j < k);
  hi_mono : forall e p j e' p' j', F !! e = Some p -> F !! e' = Some p' -> Chosen j p -> Chosen j' p' -> j < j' -> j' <= k -> e < e';
  hi_cover : forall j v, 0 < j <= k -> v < n -> exists e p, F !! e = Some p /\ SamePair (B (j - 1) v) p;
  hi_side : forall e p j, F !! e = Some p -> Chosen j p -> j < k -> exists z, d_sided st !! e = Some z /\ Sided F j p z;
  hi_vertex : 0 < k -> forall v, v < n -> exists e p, F !! e = Some p /\ SamePair (B 0 v) p /\ d_parents st !! (P v + (n - 1)) = Some (Z.of_nat e) }.

Section Facts.
Context (k : nat).
Hypothesis Htwo : forall i, i < k -> 2 <= comps n (stage i).
Lemma htwo i : i < k -> exists a b, a < n /\ b < n /\ stage i a <> stage i b.
Proof. intros Hi. apply (two_comps perm T H par HP). by apply Htwo. Qed.
Lemma chosen_lev j p : Chosen j p -> j <= k -> Lev n lt k j p.
Proof. intros [H1 H2] Hj. split; [lia|done]. Qed.
Lemma chosen_unique j j' p : Chosen j p -> Chosen j' p -> j <= k -> j' <= k -> j = j'.
Proof. intros H1 H2 Hj Hj'. apply (lev_unique n lt PO k htwo j j' p p); [by apply chosen_lev..|by left]. Qed.
End Facts.

Lemma hround_ok st k F : HI st k F -> 2 <= comps n (stage k) ->
  hround T ltb zero inf dl dv metric cap shared bounded par st (fun st' => exists F', HI st' (S k) F' /\ 2 * comps n (stage (S k)) <= comps n (stage k) /\ 1 <= comps n (stage (S k))).
Proof.
  intros HH H2. pose proof (hi_ri _ _ _ HH) as HRI. pose proof HRI as [HLn HLb Hc Hcc Hlow HEL Hnum Hcomps Hconn Hprop HNR HK HWr]. set (c := stage k) in *. pose proof (two_comps perm T H par HP c H2) as Htwo.
  assert (Htwo' : forall i, i < S k -> 2 <= comps n (stage i)). { intros i Hi. destruct (decide (i = k)) as [->|]; [done|]. apply (hi_two _ _ _ HH). lia. }
  unfold hround. rewrite (vt_size _ _ _ _ VT).
  eapply find_edges_weaken; [|by apply (find_edges_ok le vol perm T ltb zero inf dl dv metric cap H MI shared bounded par HP c)]. intros labels out lower' (HLn1 & HLb1 & Hout & Hlow').
  eapply Kernel_weaken; [|apply (hnew_edges_ok ltb SW wt n NB wsym c Hc Hcc Htwo labels HLb1 out Hout _ _ _ Hcomps HEL (hi_map _ _ _ HH))].
  intros s5 (order & HD & HO & HN5 & HE5 & HM5 & HTk & HW5). cbn beta.
  eapply Kernel_weaken; [|apply (map_ok ltb SW wt n NB wsym c Hc Hcc Htwo labels HLb1 out Hout (m_num (d_m st)) (m_edges (d_m st)) (d_map st) Hcomps HEL (hi_map _ _ _ HH) order (h_map s5) HO HM5)]; [|intros kk r Hk; by apply HW5].
  intros s6 [HM6 HMs]. cbn beta. intros worder Hworder.
  set (F2 := F' n lt c F order) in *.
  assert (HF2 : forall e p, F !! e = Some p -> F2 !! e = Some p). { intros e p Hp. unfold F2, F'. by apply lookup_app_l_Some. }
  assert (HF2n : forall kk r, order !! kk = Some r -> F2 !! (length F + kk) = Some (best n lt c r)).
  { intros kk r Hr. unfold F2, F'. rewrite lookup_app_r by lia. replace (length F + kk - length F) with kk by lia. rewrite list_lookup_fmap, Hr. done. }
  assert (Hstored : forall e p, F2 !! e = Some p -> InN n p /\ exists we, h_edges s5 !! e = Some we /\ Stored ltb wt we p).
  { intros e p Hp. split.
    - pose proof (F'_proper n lt PO c Hc Hcc Htwo F order Hprop HO p.1 p.2) as HX. rewrite <- surjective_pairing in HX. apply HX. by eapply elem_of_list_lookup_2.
    - unfold F2, F' in Hp. apply lookup_app_Some in Hp as [Hp|[Hkl Hp]].
      + destruct (HWr e p Hp) as (we & Hwe & Hrest). exists we. split; [|done]. pose proof (lookup_lt_Some _ _ _ Hp). rewrite <- (lookup_take _ (m_num (d_m st))) by lia. rewrite HTk. by rewrite lookup_take by lia.
      + rewrite list_lookup_fmap in Hp. destruct (order !! (e - length F)) as [r|] eqn:Er; [|done]. injection Hp as <-. destruct (HW5 _ _ Er) as (_ & we & Hwe & H1). exists we. split; [|exact H1].
        rewrite <- Hwe. f_equal. lia. }
  (* the edge chosen by the component of a vertex *)
  assert (Hmapv : forall v, v < n -> exists al a, g_map s6 !! c v = Some al /\ F2 !! al = Some a /\ SamePair (B k v) a).
  { intros v Hv. destruct (HMs (c v)) as (kk & r' & Hk & Hm & HS); [split; auto|]. exists (m_num (d_m st) + kk), (best n lt c r'). split; [done|]. rewrite Hnum, (HF2n _ _ Hk). split; [done|].
    unfold HdbscanTree.B. by apply same_sym. }
  assert (HNF : length F2 <= n - 1). { pose proof (adds_bound ltb SW wt n NB wsym c Hc Hcc Htwo labels HLb1 _ _ Hcomps HEL order HD (fun r Hr => proj1 (HO r) Hr)) as Hb. unfold F2, F'. rewrite app_length, fmap_length. lia. }
  assert (HcB : forall v, v < n -> InN n (B k v)). { intros v Hv. apply (B_pr n lt PO (S k) (htwo (S k) Htwo') k v); [lia|done]. }
  (* sided parents *)
  assert (exists sided, (if d_later st then update_sided ltb labels (h_edges s5) (g_map s6) (d_sided st) (d_start st) (d_end st) else Some (d_sided st)) = Some sided /\
    length sided = n - 1 /\ (forall e, e < d_start st -> sided !! e = d_sided st !! e) /\ (0 < k -> forall e p, d_start st <= e -> F !! e = Some p -> exists z, sided !! e = Some z /\ Sided F2 k p z)) as (sided & -> & Hs1 & Hs2 & Hs3).
  { rewrite (hi_later _ _ _ HH). destruct (Nat.ltb_spec 0 k) as [Hk0|Hk0]; [|exists (d_sided st); split_and!; [done|apply HH|done|lia]].
    unfold update_sided. rewrite (proj2 (Nat.leb_le _ _)). 2:{ rewrite (hi_sided _ _ _ HH), (hi_end _ _ _ HH). unfold F2, F' in HNF. rewrite app_length in HNF. lia. }
    assert (Hval : forall e p, d_start st <= e -> F !! e = Some p -> exists z, sided_value ltb labels (h_edges s5) (g_map s6) e = Some z /\ Sided F2 k p z).
    { intros e p He Hp. destruct (hi_level _ _ _ HH e p Hp) as (j & Hj & _ & Hjk & _). specialize (Hjk He) as ->.
      destruct (Hstored e p (HF2 _ _ Hp)) as [HpN (we & Hwe & HSt)]. pose proof HSt as (S1 & S2 & S3). destruct HpN as (P1 & P2 & P3).
      destruct (Hmapv p.1 P1) as (al & a & Hal & Ha & HSa). destruct (Hstored al a Ha) as [HaN (ae & Hae & HSta)]. pose proof HSta as (A1 & A2 & A3).
      unfold sided_value. rewrite Hwe. cbn [mbind option_bind]. rewrite S1, Nat2N.id. rewrite (u_comp n c labels HLb1) by done. cbn [mbind option_bind]. rewrite Hal. cbn [mbind option_bind]. rewrite Hae. cbn [mbind option_bind].
      rewrite (wedge_plt ltb SW wt n NB wsym we ae p a) by done. exists (if lt p a then (2 * Z.of_nat al + (if Nat.eqb (stage k a.1) (stage k p.1) then 1 else 0))%Z else (-3 - Z.of_nat al)%Z). split; [|by exists al, a].
      destruct (lt p a); [|done]. rewrite A1, Nat2N.id, HLb1 by apply HaN. cbn [mbind option_bind]. fold c.
      assert ((Z.of_nat (c a.1) =? Z.of_nat (c p.1))%Z = (c a.1 =? c p.1)) as ->. { apply eq_true_iff_eq. rewrite Z.eqb_eq, Nat.eqb_eq. lia. }
      pose proof (lookup_lt_Some _ _ _ Ha) as Hall. rewrite (proj2 (Z.leb_le _ _)); [done|]. unfold int_max. clear -NB30 HNF Hall. change (2 ^ 30)%N with 1073741824%N in NB30. destruct (_ =? _); lia. }
    destruct (mapM_zip (fun e s => if (d_start st <=? e) && (e <? d_end st) then sided_value ltb labels (h_edges s5) (g_map s6) e else Some s) (d_sided st) 0) as (l' & El & Hl & Hs).
    { intros e s Hs. cbn [Nat.add]. destruct (Nat.leb_spec (d_start st) e) as [L|L]; cbn [andb]; [|done]. destruct (Nat.ltb_spec e (d_end st)) as [L2|L2]; [|done]. rewrite (hi_end _ _ _ HH) in L2.
      destruct (lookup_lt_is_Some_2 F e L2) as [p Hp]. destruct (Hval e p L Hp) as (z & -> & _). done. }
    cbn [Nat.add] in Hs. exists l'. split; [exact El|]. split; [rewrite Hl; apply HH|]. split.
    - intros e He. destruct (d_sided st !! e) as [s|] eqn:Es.
      + destruct (lookup_lt_is_Some_2 l' e) as [s' Es']; [rewrite Hl; by eapply lookup_lt_Some|]. specialize (Hs e s s' Es Es'). rewrite (proj2 (Nat.leb_gt _ _)) in Hs by lia. cbn in Hs. congruence.
      + apply lookup_ge_None in Es. apply lookup_ge_None. lia.
    - intros _ e p He Hp. destruct (Hval e p He Hp) as (z & Hz & HSz). exists z. split; [|done]. pose proof (lookup_lt_Some _ _ _ Hp) as Hel.
      assert (length F <= length F2) by (unfold F2, F'; rewrite app_length; lia).
      destruct (lookup_lt_is_Some_2 (d_sided st) e) as [s Es]; [rewrite (hi_sided _ _ _ HH); lia|].
      destruct (lookup_lt_is_Some_2 l' e) as [s' Es']; [rewrite Hl; by eapply lookup_lt_Some|]. specialize (Hs e s s' Es Es'). rewrite (proj2 (Nat.leb_le _ _)) in Hs by lia. rewrite (proj2 (Nat.ltb_lt _ _)) in Hs by (rewrite (hi_end _ _ _ HH); lia). cbn [andb] in Hs. congruence. }
  (* parents of the vertices *)
  assert (exists parents, (if d_later st then Some (d_parents st) else assign_vertex_parents T labels out (g_map s6) worder (d_parents st)) = Some parents /\
    length parents = 2 * n - 1 /\ forall v, v < n -> exists e p, F2 !! e = Some p /\ SamePair (B 0 v) p /\ parents !! (P v + (n - 1)) = Some (Z.of_nat e)) as (parents & -> & Hv1 & Hv2).
  { rewrite (hi_later _ _ _ HH). destruct (Nat.ltb_spec 0 k) as [Hk0|Hk0].
    - exists (d_parents st). split_and!; [done|apply HH|]. intros v Hv. destruct (hi_vertex _ _ _ HH Hk0 v Hv) as (e & p & Hp & Hrest). exists e, p. split; [by apply HF2|done].
    - assert (k = 0) as -> by lia. unfold assign_vertex_parents. rewrite HM6.
      assert (Hth : forall e, e < n -> vertex_thread labels out e = Some e).
      { intros e He. unfold vertex_thread. destruct (proj2 Hout e) as (x & -> & _); [done|]. cbn [mbind option_bind directed_edge]. unfold BoruvkaUpdate.dst.
        destruct (best_spec n lt PO c Hc Hcc Htwo e) as [(B1 & B2 & B3 & B4) _]; [done|].
        destruct (C28_endpoints _ _ (vertex ltb wt n NB wsym _ B1) (vertex ltb wt n NB wsym _ B2)) as (-> & _ & _). rewrite Nat2N.id, (u_comp n c labels HLb1) by done. by rewrite B3. }
      destruct (par_writes_correct (fun e => i ← vertex_thread labels out e; v ← getValue T i; Some (v + (n - 1))) (fun e => i ← vertex_thread labels out e; m ← g_map s6 !! i; Some (Z.of_nat m)) worder (d_parents st)) as (ps & Eps & Hl & Hin & _).
      + rewrite Hworder. apply NoDup_seq.
      + intros e He. rewrite Hworder in He. apply elem_of_seq in He. rewrite Hth by lia. cbn [mbind option_bind]. rewrite (value le vol perm T ltb zero inf dl dv metric cap H MI) by lia. destruct (Hmapv e ltac:(lia)) as (al & a & Hal & _). change (c e) with e in Hal. rewrite Hal.
        cbn [mbind option_bind]. eexists _, _. split; [done|]. split; [done|]. rewrite (hi_parents _ _ _ HH). pose proof (P_lt le vol perm T ltb zero inf dl dv metric cap H MI e ltac:(lia)). lia.
      + intros i j d Hi Hj. rewrite Hworder in Hi, Hj. apply elem_of_seq in Hi, Hj. rewrite !Hth by lia. cbn [mbind option_bind]. rewrite !(value le vol perm T ltb zero inf dl dv metric cap H MI) by lia. cbn [mbind option_bind]. intros [= <-] [= E1].
        symmetry. apply (ren_inj perm (mi_perm _ _ _ _ _ _ _ _ _ _ _ _ MI)); [lia|lia|]. unfold BoruvkaSearch.P in *. lia.
      + exists ps. split; [done|]. split; [rewrite Hl; apply (hi_parents _ _ _ HH)|]. 
 intros v Hv. destruct (Hmapv v Hv) as (al & a & Hal & Ha & HSa). exists al, a. split; [done|]. split; [done|].
        rewrite (Hin v (P v + (n - 1))).
        * rewrite Hth by done. cbn [mbind option_bind]. change (c v) with v in Hal. by rewrite Hal.
        * rewrite Hworder. apply elem_of_seq. lia.
        * rewrite Hth by done. cbn [mbind option_bind]. by rewrite (value le vol perm T ltb zero inf dl dv metric cap H MI) by done. }
  eapply Kernel_weaken; [|apply (new_labels_ok ltb SW wt n NB wsym c Hc Hcc Htwo labels HLb1 out Hout _ _ Hcomps HEL); lia].
  intros s7 [HL7 HLb7]. exists F2.
  destruct (ri_next le vol perm T ltb zero inf dl dv metric cap H MI par HP (d_m st) c F order (b_labels s7) lower' (h_edges s5) (h_num s5)) as (HRI' & Hhalf & Hpos); try done; [lia|intros kk r Hk; by apply HW5|].
  split; [|done].
  assert (HLF : length F = d_end st) by (symmetry; apply HH).
  assert (Hnewc : forall e p, F2 !! e = Some p -> length F <= e -> Chosen (S k) p).
  { intros e p Hp Hl. unfold F2, F' in Hp. rewrite lookup_app_r in Hp by done. rewrite list_lookup_fmap in Hp. destruct (order !! (e - length F)) as [r|] eqn:Er; [|done]. injection Hp as <-.
    apply elem_of_list_lookup_2, HO in Er as [[Hr Hcr] _]. split; [lia|]. exists r. split; [done|]. replace (S k - 1) with k by lia. unfold HdbscanTree.B. fold c. rewrite Hcr. by left. }
  assert (Hold : forall e p, F2 !! e = Some p -> e < length F -> F !! e = Some p). { intros e p Hp Hl. unfold F2, F' in Hp. by rewrite lookup_app_l in Hp by done. }
  assert (Hun : forall j j' p, Chosen j p -> Chosen j' p -> j <= S k -> j' <= S k -> j = j') by (intros; by apply (chosen_unique (S k) Htwo' j j' p)).
  constructor; cbn [d_m d_map d_sided d_parents d_start d_end d_later]; try done.
  - rewrite <- HLF. rewrite HN5, Hnum. lia.
  - unfold F2, F'. rewrite app_length, fmap_length. lia.
  - intros e p Hp. destruct (decide (e < length F)) as [L|L].
    + destruct (hi_level _ _ _ HH e p (Hold _ _ Hp L)) as (j & Hj & Hjk & _). exists j. split_and!; [done|lia|lia|lia].
    + exists (S k). split_and!; [by apply (Hnewc e); [|lia]|lia|done|lia].
  - intros e p j e' p' j' Hp Hp' Hj Hj' Hjj Hjk. destruct (decide (e < length F)) as [L|L], (decide (e' < length F)) as [L'|L']; [| |exfalso|exfalso].
    + pose proof (Hold _ _ Hp' L') as Ho'. destruct (hi_level _ _ _ HH e' p' Ho') as (j2 & Hj2 & Hle & _). assert (j2 = j') as -> by (apply (Hun _ _ p'); try done; lia).
      by apply (hi_mono _ _ _ HH e p j e' p' j'); [by apply Hold|..].
    + lia.
    + assert (j = S k) by (apply (Hun _ _ p); [done|by apply (Hnewc e); [|lia]|lia|lia]). lia.
    + assert (j = S k) by (apply (Hun _ _ p); [done|by apply (Hnewc e); [|lia]|lia|lia]). lia.
  - intros j v Hj Hv. destruct (decide (j = S k)) as [->|].
    + destruct (Hmapv v Hv) as (al & a & _ & Ha & HS). exists al, a. split; [done|]. by replace (S k - 1) with k by lia.
    + destruct (hi_cover _ _ _ HH j v ltac:(lia) Hv) as (e & p & Hp & HS). exists e, p. split; [by apply HF2|done].
  - intros e p j Hp Hj Hjk. assert (e < length F) as L. { destruct (decide (e < length F)) as [|L]; [done|]. assert (j = S k) by (apply (Hun _ _ p); [done|by apply (Hnewc e); [|lia]|lia|lia]). lia. }
    pose proof (Hold _ _ Hp L) as Ho. destruct (hi_level _ _ _ HH e p Ho) as (j2 & Hj2 & Hle & Hst1 & Hst2). assert (j2 = j) as -> by (apply (Hun _ _ p); try done; lia).
    destruct (decide (d_start st <= e)) as [Ls|Ls].
    + specialize (Hst1 Ls) as ->. destruct Hj as [Hk0 _]. by apply (Hs3 Hk0 e p).
    + rewrite Hs2 by lia. destruct (hi_side _ _ _ HH e p j Ho Hj ltac:(lia)) as (z & Hz & al & a & Ha & Hrest). exists z. split; [done|]. exists al, a. split; [by apply HF2|done].
Qed.
Lemma hloop_ok fuel : forall st k F (post : dstate -> Prop), HI st k F -> 2 <= comps n (stage k) < 2 ^ S fuel ->
  (forall st k F, HI st (S k) F -> comps n (stage (S k)) = 1 -> post st) -> hboruvka T ltb zero inf dl dv metric cap shared bounded fuel par st post.
Proof.
  induction fuel as [|fuel IH]; intros st k F post HH Hcomps Hpost; [cbn in Hcomps; lia|]. cbn [hboruvka].
  assert (Hw : forall P1 P2 : @dstate W -> Prop, (forall s, P1 s -> P2 s) -> hround T ltb zero inf dl dv metric cap shared bounded par st P1 -> hround T ltb zero inf dl dv metric cap shared bounded par st P2).
  { intros P1 P2 HPP. unfold hround. apply find_edges_weaken. intros l o w. apply Kernel_weaken. intros s5. apply Kernel_weaken. intros s6 HX order Ho. specialize (HX order Ho).
    destruct (if d_later st then update_sided _ _ _ _ _ _ _ else _); [|done]. destruct (if d_later st then _ else assign_vertex_parents _ _ _ _ _ _); [|done]. revert HX. apply Kernel_weaken. intros s7. apply HPP. }
  eapply Hw; [|apply (hround_ok st k F HH); lia].
  intros st' (F' & HH' & Hhalf & Hpos). rewrite (vt_size _ _ _ _ VT). pose proof (ri_comps _ _ _ _ _ _ _ (hi_ri _ _ _ HH')) as Hc'. destruct (Z.leb_spec (Z.of_nat n - Z.of_nat (m_num (d_m st'))) 1) as [L|L].
  - apply (Hpost _ k F' HH'). lia.
  - apply (IH st' (S k) F'); [done| |done]. rewrite Nat.pow_succ_r' in Hcomps. lia.
Qed.
End Loop.
