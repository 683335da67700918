(** The last phase in mode HDBSCAN: keys, sorting, and the dendrogram. *)
From Verif Require Import KernelAlgProof PropertiesDendrogram.
From Verif Require Export HdbscanLoop HdbscanSort.
Local Open Scope nat_scope.

(** ** Reordering of the first edge of every chain *)
Lemma wedge_weak {W} (ltb : W -> W -> bool) : StrictWeak ltb -> (forall e, wedge_lt ltb e e = false) /\ forall e f g, wedge_lt ltb e f = true -> wedge_lt ltb f g = true -> wedge_lt ltb e g = true.
Proof.
  intros SW. unfold wedge_lt. split.
  - intros e. rewrite (weq_refl ltb SW). cbn [negb]. rewrite N.eqb_refl. cbn [negb]. apply N.ltb_irrefl.
  - intros e f g. set (me := N.min _ _). set (mf := N.min (w_source f) _). set (mg := N.min (w_source g) _).
    destruct (weq ltb (w_weight e) (w_weight f)) eqn:E1, (weq ltb (w_weight f) (w_weight g)) eqn:E2; cbn [negb].
    + rewrite (weq_trans ltb SW _ _ _ E1 E2). cbn [negb]. destruct (N.eqb_spec me mf), (N.eqb_spec mf mg), (N.eqb_spec me mg); cbn [negb]; rewrite ?N.ltb_lt; lia.
    + intros _ H. rewrite (ltb_congr ltb SW _ _ _ _ E1 (weq_refl ltb SW _)), H. destruct (weq ltb (w_weight e) (w_weight g)) eqn:E3; [|done]. exfalso. apply weq_true in E1 as [A1 A2], E3 as [B1 B2].
      pose proof (w_trans ltb SW (w_weight g) (w_weight e) (w_weight f)). pose proof (sw_incomp _ SW (w_weight f) (w_weight e) (w_weight g) A2 B1). congruence.
    + intros H _. rewrite weq_sym in E2. rewrite <- (ltb_congr ltb SW _ _ _ _ (weq_refl ltb SW _) E2) in H. rewrite H. destruct (weq ltb (w_weight e) (w_weight g)) eqn:E3; [|done]. apply weq_true in E3 as [B1 _]. congruence.
    + intros H1 H2. rewrite (sw_trans _ SW _ _ _ H1 H2). destruct (weq ltb (w_weight e) (w_weight g)) eqn:E3; [|done]. apply weq_true in E3 as [B1 _]. by rewrite (sw_trans _ SW _ _ _ H1 H2) in B1.
Qed.
Section Fix.
Context {W : Type} (ltb : W -> W -> bool) (edges : list (wedge W)) (keys sorted : list Z).
Notation m := (length edges).
Notation lt := (fun e f => wedge_lt ltb e f).
Hypothesis SW : StrictWeak ltb.
Notation SWE := (wedge_weak ltb SW).
Hypothesis Hkeys : length keys = m.
Hypothesis Hsorted : length sorted = m.
Hypothesis Hord : forall i j a b, i <= j -> sorted !! i = Some a -> sorted !! j = Some b -> (a <= b)%Z.

(** a permutation that sorts the keys *)
Definition PI (perm : list nat) : Prop := perm ≡ₚ seq 0 m /\ forall i e, perm !! i = Some e -> keys !! e = sorted !! i.
Definition at_pos (perm : list nat) (i : nat) : option (wedge W) := e ← perm !! i; edges !! e.
Definition Start (i : nat) : Prop := i = 0 \/ exists a b, sorted !! (i - 1) = Some a /\ sorted !! i = Some b /\ chain a <> chain b.
(** no edge with the same key is smaller *)
Definition First (perm : list nat) (i : nat) : Prop := forall k ek ei, sorted !! k = sorted !! i -> i < m -> at_pos perm k = Some ek -> at_pos perm i = Some ei -> wedge_lt ltb ek ei = false.
Lemma pi_length perm : PI perm -> length perm = m.
Proof. intros [HP _]. apply Permutation_length in HP. by rewrite seq_length in HP. Qed.
Lemma pi_lookup perm i : PI perm -> i < m -> exists e we, perm !! i = Some e /\ e < m /\ edges !! e = Some we /\ at_pos perm i = Some we.
Proof.
  intros HP Hi. pose proof (pi_length perm HP) as HL. destruct (lookup_lt_is_Some_2 perm i) as [e He]; [lia|]. assert (e < m) as Hem.
  { apply elem_of_list_lookup_2 in He. destruct HP as [HP _]. rewrite HP in He. apply elem_of_seq in He. lia. }
  destruct (lookup_lt_is_Some_2 edges e Hem) as [we Hwe]. exists e, we. split_and!; [done..|]. unfold at_pos. by rewrite He.
Qed.
Lemma smallest_ok perm key i0 : PI perm -> sorted !! i0 = Some key -> i0 < m -> forall cnt k m0, k + cnt = m -> i0 <= m0 < k -> sorted !! m0 = Some key ->
  (forall k' ek em, i0 <= k' < k -> at_pos perm k' = Some ek -> at_pos perm m0 = Some em -> wedge_lt ltb ek em = false) ->
  (forall k' , i0 <= k' < k -> sorted !! k' = Some key) ->
  exists m1, smallest ltb edges sorted cnt perm key m0 k = Some m1 /\ i0 <= m1 < m /\ sorted !! m1 = Some key /\
    forall k' ek em, i0 <= k' -> sorted !! k' = Some key -> at_pos perm k' = Some ek -> at_pos perm m1 = Some em -> wedge_lt ltb ek em = false.
Proof.
  intros HP Hkey Hi0. induction cnt as [|cnt IH]; intros k m0 Hk Hm0 Hsm Hmin Heq; cbn [smallest].
  { exists m0. split; [done|]. split; [lia|]. split; [done|]. intros k' ek em Hk' Hs He Hem. apply (Hmin k'); try done. apply lookup_lt_Some in Hs. lia. }
  destruct (lookup_lt_is_Some_2 sorted k) as [kk Hkk]; [lia|]. rewrite Hkk. cbn [mbind option_bind]. destruct (Z.eqb_spec kk key) as [->|Hne].
  - destruct (pi_lookup perm k HP ltac:(lia)) as (pk & ek & Epk & _ & Eek & Hak). destruct (pi_lookup perm m0 HP ltac:(lia)) as (pm & em & Epm & _ & Eem & Ham).
    rewrite Epk, Epm. cbn [mbind option_bind]. rewrite Eek, Eem. cbn [mbind option_bind].
    apply IH; [lia|destruct (wedge_lt ltb ek em); lia|by destruct (wedge_lt ltb ek em)| |].
    + intros k' ek' em' Hk' He' Hem'. destruct (wedge_lt ltb ek em) eqn:El.
      * rewrite Hak in Hem'. injection Hem' as <-. destruct (decide (k' = k)) as [->|].
        { rewrite Hak in He'. injection He' as <-. apply (proj1 SWE). }
        destruct (wedge_lt ltb ek' ek) eqn:E2; [|done]. pose proof (proj2 SWE _ _ _ E2 El) as E3. rewrite (Hmin k' ek' em) in E3; [done|lia|done|done].
      * rewrite Ham in Hem'. injection Hem' as <-. destruct (decide (k' = k)) as [->|].
        { rewrite Hak in He'. by injection He' as <-. } apply (Hmin k'); [lia|done|done].
    + intros k' Hk'. destruct (decide (k' = k)) as [->|]; [done|]. apply Heq. lia.
  - exists m0. split; [done|]. split; [lia|]. split; [done|]. intros k' ek em Hk' Hs He Hem. apply (Hmin k'); try done. split; [done|].
    destruct (decide (k' < k)) as [|L]; [done|]. exfalso. apply Hne. pose proof (Hord k k' _ _ ltac:(lia) Hkk Hs). pose proof (Hord i0 k _ _ ltac:(lia) Hkey Hkk). lia.
Qed.
Lemma swap_perm (perm : list nat) i j a b : perm !! i = Some a -> perm !! j = Some b -> <[j:=a]> (<[i:=b]> perm) ≡ₚ perm.
Proof.
  intros Ha Hb. destruct (decide (i = j)) as [->|Hne].
  { rewrite Ha in Hb. injection Hb as <-. rewrite list_insert_insert. by rewrite list_insert_id. }
  apply Permutation_inj. split; [by rewrite !insert_length|]. exists (fun k => if decide (k = i) then j else if decide (k = j) then i else k). split.
  - intros x y. repeat case_decide; congruence.
  - intros k. pose proof (lookup_lt_Some _ _ _ Ha). pose proof (lookup_lt_Some _ _ _ Hb). case_decide as E1; [subst k|case_decide as E2; [subst k|]].
    + rewrite list_lookup_insert_ne by done. rewrite list_lookup_insert by done. done.
    + rewrite list_lookup_insert; [done|]. by rewrite insert_length.
    + by rewrite !list_lookup_insert_ne by done.
Qed.
Lemma chain_mono a b : (a <= b)%Z -> (chain a <= chain b)%Z.
Proof. intros Hab. unfold chain. rewrite !Z.shiftr_div_pow2 by done. apply Z.div_le_mono; [done|done]. Qed.
Lemma start_unique i i' : Start i -> Start i' -> i < m -> i' < m -> (forall a b, sorted !! i = Some a -> sorted !! i' = Some b -> chain a = chain b) -> i = i'.
Proof.
  assert (forall i i', Start i' -> i < i' -> i' < m -> (forall a b, sorted !! i = Some a -> sorted !! i' = Some b -> chain a = chain b) -> False) as H.
  { intros j j' Hs Hlt Hm He. destruct Hs as [->|(a & b & Ea & Eb & Hne)]; [lia|]. destruct (lookup_lt_is_Some_2 sorted j) as [x Hx]; [lia|]. specialize (He x b Hx Eb).
    pose proof (chain_mono _ _ (Hord j (j' - 1) _ _ ltac:(lia) Hx Ea)). pose proof (chain_mono _ _ (Hord (j' - 1) j' _ _ ltac:(lia) Ea Eb)). lia. }
  intros S1 S2 H1 H2 He. destruct (Nat.lt_trichotomy i i') as [L|[L|L]]; [exfalso|done|exfalso].
  - by apply (H i i').
  - apply (H i' i); try done. intros. symmetry. by apply He.
Qed.
Lemma fix_thread_ok perm i : PI perm -> i < m -> exists perm', fix_thread ltb edges sorted perm i = Some perm' /\ PI perm' /\ (Start i -> First perm' i) /\
  (forall i', i' <> i -> Start i' -> First perm i' -> First perm' i').
Proof.
  intros HP Hi. unfold fix_thread. destruct (lookup_lt_is_Some_2 sorted i) as [key Hkey]; [lia|]. rewrite Hkey. cbn [mbind option_bind].
  assert (exists b : bool, chain_start sorted i = Some b /\ (b = true <-> Start i)) as (b & -> & Hb).
  { unfold chain_start, Start. destruct i as [|j]; [exists true; split; [done|]; split; [by left|done]|]. destruct (lookup_lt_is_Some_2 sorted j) as [x Hx]; [lia|]. rewrite Hx, Hkey. cbn [mbind option_bind].
    eexists. split; [done|]. rewrite negb_true_iff, Z.eqb_neq. replace (S j - 1) with j by lia. split; [intros Hn; right; exists x, key; done|]. intros [|(a & b & Ea & Eb & Hn)]; [lia|]. congruence. }
  cbn [mbind option_bind]. destruct b; [|exists perm; split; [done|]; split; [done|]; split; [intros HS; apply Hb in HS; done|done]]. assert (Start i) as HSt by (by apply Hb).
  destruct (smallest_ok perm key i HP Hkey Hi (m - S i) (S i) i) as (m1 & -> & Hm1 & Hs1 & Hmin); [lia|lia|done| | |].
  { intros k' ek em Hk' He Hem. assert (k' = i) as -> by lia. rewrite He in Hem. injection Hem as <-. apply (proj1 SWE). }
  { intros k' Hk'. by assert (k' = i) as -> by lia. }
  cbn [mbind option_bind].
  (* positions before the start of the chain have other keys *)
  assert (Hbefore : forall k, sorted !! k = Some key -> i <= k).
  { intros k Hk. destruct (decide (i <= k)) as [|L]; [done|]. exfalso. destruct HSt as [->|(a & b & Ea & Eb & Hne)]; [lia|]. rewrite Hkey in Eb. injection Eb as <-. apply Hne. f_equal.
    pose proof (Hord k (i - 1) _ _ ltac:(lia) Hk Ea). pose proof (Hord (i - 1) i _ _ ltac:(lia) Ea Hkey). lia. }
  destruct (Nat.eqb_spec m1 i) as [->|Hne].
  { exists perm. split; [done|]. split; [done|]. split; [|done]. intros _ k ek ei Hk _ He Hei. rewrite Hkey in Hk. by apply (Hmin k); [apply Hbefore|..]. }
  destruct (pi_lookup perm i HP Hi) as (pi & ei & Epi & _ & Eei & Hai). destruct (pi_lookup perm m1 HP ltac:(lia)) as (pm & em & Epm & _ & Eem & Ham). pose proof (pi_length perm HP) as HL.
  rewrite Epi, Epm. cbn [mbind option_bind]. rewrite wr_Some by lia. cbn [mbind option_bind]. rewrite wr_Some by (rewrite insert_length; lia). eexists. split; [done|]. set (perm' := <[m1:=pi]> (<[i:=pm]> perm)).
  assert (HL1 : perm' !! i = Some pm). { unfold perm'. rewrite list_lookup_insert_ne by done. apply list_lookup_insert. lia. }
  assert (HL2 : perm' !! m1 = Some pi). { unfold perm'. apply list_lookup_insert. rewrite insert_length. lia. }
  assert (HL3 : forall k, k <> i -> k <> m1 -> perm' !! k = perm !! k). { intros k H1 H2. unfold perm'. by rewrite !list_lookup_insert_ne by done. }
  assert (PI perm') as HP'.
  { split; [transitivity perm; [by apply swap_perm|apply HP]|]. intros k e He. destruct HP as [_ HP]. destruct (decide (k = i)) as [->|N1]; [|destruct (decide (k = m1)) as [->|N2]].
    - rewrite HL1 in He. injection He as <-. rewrite (HP _ _ Epm). congruence.
    - rewrite HL2 in He. injection He as <-. rewrite (HP _ _ Epi). congruence.
    - rewrite HL3 in He by done. by apply HP. }
  (* the same edges stand at the positions with this key *)
  assert (Hsw : forall k ek, at_pos perm' k = Some ek -> exists k', at_pos perm k' = Some ek /\ sorted !! k' = sorted !! k /\ (k <> i -> k <> m1 -> k' = k)).
  { intros k ek He. unfold at_pos in He. destruct (decide (k = i)) as [->|N1]; [|destruct (decide (k = m1)) as [->|N2]].
    - rewrite HL1 in He. exists m1. unfold at_pos. rewrite Epm. split; [done|]. split; [congruence|done].
    - rewrite HL2 in He. exists i. unfold at_pos. rewrite Epi. split; [done|]. split; [congruence|done].
    - rewrite HL3 in He by done. exists k. done. }
  split; [done|]. split.
  - intros _ k ek ei' Hk _ He Hei'. destruct (Hsw k ek He) as (k' & He' & Hs' & _). rewrite Hk, Hkey in Hs'. assert (ei' = em) as ->. { unfold at_pos in Hei'. rewrite HL1 in Hei'. cbn in Hei'. congruence. }
    by apply (Hmin k'); [apply Hbefore|..].
  - intros i' Hii HS' HF k ek ei' Hk Him He Hei'. destruct (lookup_lt_is_Some_2 sorted i') as [key' Hkey']; [lia|].
    assert (i' <> m1). { intros ->. apply Hii. symmetry. apply start_unique; try done. intros a b Ha Hb'. congruence. }
    assert (at_pos perm i' = Some ei') as Hei2. { unfold at_pos in *. by rewrite HL3 in Hei' by done. }
    destruct (Hsw k ek He) as (k' & He' & Hs' & _). apply (HF k' ek ei'); [congruence|done..].
Qed.
Lemma fix_order_ok order : NoDup order -> (forall i, i ∈ order -> i < m) -> forall perm, PI perm -> exists perm', fix_order ltb edges sorted order perm = Some perm' /\ PI perm' /\
  (forall i, i ∈ order -> Start i -> First perm' i) /\ (forall i, i ∉ order -> Start i -> First perm i -> First perm' i).
Proof.
  induction order as [|i order IH]; intros HD Hin perm HP.
  { exists perm. split; [done|]. split; [done|]. split; [|done]. intros i Hi. by apply elem_of_nil in Hi. }
  cbn [fix_order]. apply NoDup_cons in HD as [Hni HD]. destruct (fix_thread_ok perm i HP ltac:(apply Hin; by left)) as (perm1 & -> & HP1 & HF1 & HO1). cbn [mbind option_bind].
  destruct (IH HD ltac:(intros; apply Hin; by right) perm1 HP1) as (perm2 & -> & HP2 & HF2 & HO2). exists perm2. split; [done|]. split; [done|]. split.
  - intros j Hj HS. apply elem_of_cons in Hj as [->|Hj]; [|by apply HF2]. apply HO2; [done..|]. by apply HF1.
  - intros j Hj HS HF. apply not_elem_of_cons in Hj as [Hne Hj]. apply HO2; [done..|]. by apply HO1.
Qed.
End Fix.

Lemma mapM_total {A B} (f : A -> option B) (l : list A) : (forall i a, l !! i = Some a -> is_Some (f a)) ->
  exists l', mapM f l = Some l' /\ length l' = length l /\ forall i a, l !! i = Some a -> l' !! i = f a.
Proof.
  induction l as [|x l IH]; intros Hf; [by exists []|]. destruct (Hf 0 x eq_refl) as [y Hy]. destruct IH as (l' & Hl & HL & Hs); [intros i a Ha; by apply (Hf (S i))|].
  exists (y :: l'). cbn. rewrite Hy. cbn. rewrite Hl. cbn. split; [done|]. split; [by rewrite HL|]. intros [|i] a Ha; [cbn in *; congruence|]. by apply Hs.
Qed.

Section Final.
Context {V W : Type} (le : V -> V -> Prop) (vol : nat -> V) (perm : list nat) (T : tree V)
  (ltb : W -> W -> bool) (zero inf : W) (dl : nat -> nat -> W) (dv : nat -> V -> W) (metric : nat -> nat -> W -> W) (cap H : nat).
Context (MI : MstInput le vol perm T ltb zero inf dl dv metric cap H).
Notation n := (length perm).
Hypothesis NB30 : (N.of_nat n <= 2 ^ 30)%N.
Notation P := (P perm).
Notation wt := (wt perm dl metric).
Notation lt := (plt ltb wt).
Notation SW := (mi_sw _ _ _ _ _ _ _ _ _ _ _ _ MI).
Notation VT := (mi_valid _ _ _ _ _ _ _ _ _ _ _ _ MI).
Notation n2 := (mi_two _ _ _ _ _ _ _ _ _ _ _ _ MI).
Notation NB := (mi_size _ _ _ _ _ _ _ _ _ _ _ _ MI).
Notation Hperm := (mi_perm _ _ _ _ _ _ _ _ _ _ _ _ MI).
Notation wsym := (wt_sym le vol perm T ltb zero inf dl dv metric cap H MI).
Notation PO := (plt_order ltb SW wt n NB wsym).
Notation stage := (stage n lt).
Notation B := (B n lt).
Notation HI := (HI perm ltb dl metric).
Variable bits : W -> Z.
(** the bit pattern of a weight is a non-negative int that orders the weights *)
Hypothesis Hbits : forall a, ltb a zero = false -> ltb a inf = true -> (0 <= bits a < 2 ^ 31)%Z.
Hypothesis Hbits_lt : forall a b, ltb a zero = false -> ltb a inf = true -> ltb b zero = false -> ltb b inf = true -> ltb a b = (bits a <? bits b)%Z.

Lemma wt_range p : InN n p -> ltb (wt p) zero = false /\ ltb (wt p) inf = true.
Proof.
  destruct p as [i j]. intros (Hi & Hj & Hij). split; [by apply (wt_zero le vol perm T ltb zero inf dl dv metric cap H MI)|by apply (wt_inf le vol perm T ltb zero inf dl dv metric cap H MI)].
Qed.
Lemma stored_range e p : InN n p -> Stored ltb wt e p -> ltb (w_weight e) zero = false /\ ltb (w_weight e) inf = true /\ bits (w_weight e) = bits (wt p).
Proof.
  intros Hp (_ & _ & Hw). destruct (wt_range p Hp) as [R1 R2]. assert (ltb (w_weight e) zero = false /\ ltb (w_weight e) inf = true) as [R3 R4].
  { split; [by rewrite (ltb_congr ltb SW _ (wt p) _ zero Hw (weq_refl ltb SW _))|by rewrite (ltb_congr ltb SW _ (wt p) _ inf Hw (weq_refl ltb SW _))]. }
  split_and!; [done..|]. apply weq_true in Hw as [H1 H2]. rewrite Hbits_lt in H1, H2 by done. apply Z.ltb_ge in H1, H2. lia.
Qed.

Section End.
Context (st : @dstate W) (k : nat) (F : list (nat * nat)).
Notation R := (S k).
Hypothesis HH : HI st R F.
Hypothesis H1c : comps n (stage R) = 1.
Notation m := (length F).
Notation edges := (m_edges (d_m st)).
Notation HRI := (hi_ri _ _ _ _ _ _ _ HH).
Notation Lev := (Lev n lt R).
Notation Stop := (Stop n lt R).
Notation w := (fun p => bits (wt p)).
Lemma e_two i : i < R -> exists a b, a < n /\ b < n /\ stage i a <> stage i b.
Proof.
  intros Hi. pose proof (hi_two _ _ _ _ _ _ _ HH i Hi) as Hc. unfold comps in Hc. assert (NoDup (base.filter (fun j => stage i j = j) (seq 0 n))) as HD by (apply NoDup_filter, NoDup_seq).
  destruct (base.filter (fun j => stage i j = j) (seq 0 n)) as [|a [|b l]] eqn:E1; [cbn in Hc; lia|cbn in Hc; lia|].
  assert (a ∈ base.filter (fun j => stage i j = j) (seq 0 n)) as Ha by (rewrite E1; by left). assert (b ∈ base.filter (fun j => stage i j = j) (seq 0 n)) as Hb by (rewrite E1; right; by left).
  apply elem_of_list_filter in Ha as [Ca Ha%elem_of_seq], Hb as [Cb Hb%elem_of_seq]. exists a, b. split_and!; [lia|lia|]. rewrite Ca, Cb. intros ->.
  apply NoDup_cons in HD as [HD _]. apply HD. by left.
Qed.
Lemma e_one a b : a < n -> b < n -> stage R a = stage R b.
Proof.
  intros Ha Hb. assert (stage R a < n /\ stage R b < n) as [La Lb] by (split; by apply (ri_c _ _ _ _ _ _ _ HRI)). assert (stage R (stage R a) = stage R a /\ stage R (stage R b) = stage R b) as [Ea Eb] by (split; by apply (ri_cc _ _ _ _ _ _ _ HRI)).
  unfold comps in H1c. destruct (base.filter (fun i => stage R i = i) (seq 0 n)) as [|x [|y l]] eqn:E1; [done| |done].
  assert (stage R a ∈ [x]) as Xa by (rewrite <- E1; apply elem_of_list_filter; split; [done|apply elem_of_seq; lia]). assert (stage R b ∈ [x]) as Xb by (rewrite <- E1; apply elem_of_list_filter; split; [done|apply elem_of_seq; lia]).
  apply elem_of_list_singleton in Xa, Xb. congruence.
Qed.
Lemma e_len : m = n - 1. Proof. pose proof (ri_comps _ _ _ _ _ _ _ HRI) as Hc. rewrite H1c, (ri_num _ _ _ _ _ _ _ HRI) in Hc. lia. Qed.
Lemma e_edges : length edges = m. Proof. rewrite (ri_edges _ _ _ _ _ _ _ HRI), e_len. done. Qed.
Lemma e_pr e p : F !! e = Some p -> InN n p.
Proof. intros He. destruct p as [a b]. apply (ri_proper _ _ _ _ _ _ _ HRI a b). by eapply elem_of_list_lookup_2. Qed.
Lemma e_stored e p : F !! e = Some p -> exists we, edges !! e = Some we /\ Stored ltb wt we p.
Proof. intros He. destruct (ri_written _ _ _ _ _ _ _ HRI e p He) as (we & Hwe & Hrest). by exists we. Qed.
Lemma e_lev e p : F !! e = Some p -> exists j, Lev j p /\ (d_start st <= e -> j = R) /\ (e < d_start st -> j < R).
Proof. intros He. destruct (hi_level _ _ _ _ _ _ _ HH e p He) as (j & [Hj0 Hj] & Hle & H1 & H2). exists j. split; [|done]. split; [lia|done]. Qed.
Lemma lev_chosen j p : Lev j p -> Chosen perm ltb dl metric j p. Proof. intros [Hj Hv]. split; [lia|done]. Qed.
Lemma e_mono e p j e' p' j' : F !! e = Some p -> F !! e' = Some p' -> Lev j p -> Lev j' p' -> j < j' -> e < e'.
Proof. intros He He' HL HL' Hj. apply (hi_mono _ _ _ _ _ _ _ HH e p j e' p' j'); try done; [by apply lev_chosen..|]. destruct HL' as [? _]. lia. Qed.
Lemma e_cover i v : i < R -> v < n -> exists e p, F !! e = Some p /\ SamePair (B i v) p.
Proof. intros Hi Hv. pose proof (hi_cover _ _ _ _ _ _ _ HH (S i) v ltac:(lia) Hv) as Hc. by replace (S i - 1) with i in Hc by lia. Qed.
Lemma e_w p q : Pr n p -> Pr n q -> lt q p = false -> (w p <= w q)%Z.
Proof.
  intros Hp Hq Hl. pose proof (plt_weight ltb SW wt n NB wsym p q Hp Hq Hl) as Hw. destruct (wt_range p Hp), (wt_range q Hq). rewrite Hbits_lt in Hw by done. by apply Z.ltb_ge in Hw.
Qed.
Lemma e_top : (2 * Z.of_nat m < int_max)%Z.
Proof. rewrite e_len. unfold int_max. pose proof n2. clear -NB30. change (2 ^ 30)%N with 1073741824%N in NB30. change (2 ^ 31)%Z with 2147483648%Z. lia. Qed.

(** ** Keys *)
Definition sided' : list Z := take (d_start st) (d_sided st) ++ replicate (d_end st - d_start st) root_chain_value ++ drop (d_end st) (d_sided st).
Lemma sided'_spec e p j : F !! e = Some p -> Lev j p -> (j = R /\ sided' !! e = Some root_chain_value) \/ (j < R /\ exists z, sided' !! e = Some z /\ Sided perm ltb dl metric F j p z).
Proof.
  intros He HL. destruct (e_lev e p He) as (j' & HL' & H1 & H2). assert (j = j') as <- by (apply (lev_unique n lt PO R e_two _ _ p p); [done..|by left]).
  pose proof (lookup_lt_Some _ _ _ He) as Hem. pose proof (hi_end _ _ _ _ _ _ _ HH) as Hend. pose proof (hi_sided _ _ _ _ _ _ _ HH) as Hsd. pose proof e_len as Hml. pose proof (hi_start _ _ _ _ _ _ _ HH) as Hst. unfold sided'.
  assert (length (take (d_start st) (d_sided st)) = d_start st) as Htk by (rewrite take_length; lia).
  destruct (decide (d_start st <= e)) as [L|L].
  - left. split; [by apply H1|]. rewrite lookup_app_r by lia. rewrite lookup_app_l by (rewrite replicate_length; lia). apply lookup_replicate. split; [done|]. lia.
  - right. split; [apply H2; lia|]. rewrite lookup_app_l by lia. rewrite lookup_take by lia. apply (hi_side _ _ _ _ _ _ _ HH); [done|by apply lev_chosen|apply H2; lia].
Qed.
Definition KeyOf (j : nat) (p : nat * nat) (key : Z) : Prop := exists s, Stop j s p /\
  (s = R /\ key = root_chain_value \/ s < R /\ exists be b, F !! be = Some b /\ SamePair (B s p.1) b /\ key = (2 * Z.of_nat be + side n lt s b p)%Z).
Lemma joins j v p : Lev j p -> v < n -> SamePair (B (j - 1) v) p -> stage j p.1 = stage j v.
Proof.
  intros [Hj _] Hv HS. destruct (B_joins n lt PO R e_two (j - 1) v ltac:(lia) Hv) as [J1 J2]. replace (S (j - 1)) with j in * by lia. destruct HS as [->| ->]; done.
Qed.
Lemma z_index_nat (x : nat) : z_index (Z.of_nat x) = Some x.
Proof. unfold z_index. rewrite (proj2 (Z.leb_le _ _)) by lia. by rewrite Nat2Z.id. Qed.
Lemma s01 s b p : (0 <= side n lt s b p <= 1)%Z. Proof. unfold side. destruct (Nat.eqb _ _); lia. Qed.
Lemma half_key al s b p : z_index ((2 * Z.of_nat al + side n lt s b p) / 2) = Some al.
Proof.
  pose proof (s01 s b p). rewrite Z.mul_comm, Z.div_add_l by lia. rewrite (Z.div_small (side n lt s b p)) by lia. rewrite Z.add_0_r. apply z_index_nat.
Qed.
Lemma key_loop_ok e p j we : F !! e = Some p -> Lev j p -> edges !! e = Some we -> Stored ltb wt we p ->
  forall fuel x px jx, F !! x = Some px -> Lev jx px -> j < jx -> SamePair (B (jx - 1) p.1) px -> (forall i, j <= i < jx -> lt (B i p.1) p = true) -> m - x <= fuel ->
  exists key, key_loop ltb edges sided' fuel we x = Some key /\ KeyOf j p key.
Proof.
  intros He HL Hwe HSt. pose proof (e_pr e p He) as HP. pose proof HP as (P1 & P2 & P3). induction fuel as [|fuel IH]; intros x px jx Hx HLx Hj HS Hlt Hf; [apply lookup_lt_Some in Hx; lia|].
  cbn [key_loop]. pose proof HLx as [Hjx _]. destruct (sided'_spec x px jx Hx HLx) as [[EjR ->]|(HjR & z & -> & al & a & Ha & HSa & ->)]; cbn [mbind option_bind].
  - subst jx. exists root_chain_value. split; [done|]. exists R. split; [|by left]. split; [lia|]. split; [intros i Hi; apply Hlt; lia|lia].
  - pose proof (joins jx p.1 px HLx P1 HS) as Hst. rewrite (B_same n lt jx _ _ Hst) in HSa.
    assert (Lev (S jx) a) as HLa. { split; [lia|]. exists p.1. split; [done|]. by replace (S jx - 1) with jx by lia. }
    assert (x < al) as Hxal by (by apply (e_mono x px jx al a (S jx)); [..|lia]).
    assert (Hnext : lt (B jx p.1) p = true -> exists key, key_loop ltb edges sided' fuel we al = Some key /\ KeyOf j p key).
    { intros Hl. apply (IH al a (S jx)); try done; [lia|by replace (S jx - 1) with jx by lia| |lia]. intros i Hi. destruct (decide (i = jx)) as [->|]; [done|]. apply Hlt. lia. }
    destruct (lt px a) eqn:Epa.
    + assert (Nat.eqb (stage jx a.1) (stage jx px.1) = Nat.eqb (stage jx a.1) (stage jx p.1)) as -> by (by rewrite Hst). fold (side n lt jx a p). pose proof (s01 jx a p) as H01.
      rewrite (proj2 (Z.leb_gt _ _)) by (unfold follow_chain_value; lia). rewrite (proj2 (Z.leb_le _ _)) by lia. rewrite half_key. cbn [mbind option_bind].
      destruct (e_stored al a Ha) as (ae & -> & HSta). cbn [mbind option_bind]. rewrite (wedge_plt ltb SW wt n NB wsym we ae p a HP (e_pr al a Ha) HSt HSta).
      destruct (lt p a) eqn:El.
      * eexists. split; [done|]. exists jx. split; [|right; split; [done|]; by exists al, a]. split; [lia|]. split; [done|]. intros _. by rewrite (lt_same_r _ _ PO _ _ _ HSa).
      * apply Hnext. apply (B_total n lt PO R e_two j p jx HL); [lia|done|]. by rewrite (lt_same_r _ _ PO _ _ _ HSa).
    + rewrite (proj2 (Z.leb_le _ _)) by (unfold follow_chain_value; lia). replace (follow_chain_value - (-3 - Z.of_nat al))%Z with (Z.of_nat al) by (unfold follow_chain_value; lia). rewrite z_index_nat. cbn [mbind option_bind].
      apply Hnext. apply (sw_trans _ (po_weak _ _ PO) _ px).
      * rewrite <- (B_same n lt jx _ _ Hst). apply (B_total n lt PO R e_two jx px jx HLx); [lia|done|]. rewrite (B_same n lt jx _ _ Hst). by rewrite (lt_same_r _ _ PO _ _ _ HSa).
      * rewrite <- (lt_same _ _ PO _ _ _ HS). apply Hlt. lia.
Qed.
Lemma edge_key_ok e p : F !! e = Some p -> exists z, edge_key ltb inf bits edges sided' e = Some (Z.shiftl z HdbscanModel.shift + w p)%Z /\ Key n lt R F int_max p z.
Proof.
  intros He. destruct (e_lev e p He) as (j & HL & _). destruct (e_stored e p He) as (we & Hwe & HSt). pose proof (e_pr e p He) as HP. destruct (stored_range we p HP HSt) as (_ & Hinf & Hb).
  unfold edge_key. rewrite Hwe.
  assert (exists key0, sided' !! e = Some key0 /\ exists key, (if (key0 <=? follow_chain_value)%Z then next ← z_index (follow_chain_value - key0); key_loop ltb edges sided' (length edges) we next else Some key0) = Some key /\ KeyOf j p key) as (key0 & -> & key & Ek & s & HSs & Hs).
  { destruct (sided'_spec e p j He HL) as [[EjR ->]|(HjR & z & -> & al & a & Ha & HSa & ->)]; eexists; (split; [done|]).
    - exists root_chain_value. split; [done|]. exists R. subst j. split; [|by left]. split; [lia|]. split; [lia|lia].
    - destruct (lt p a) eqn:Epa.
      + fold (side n lt j a p). pose proof (s01 j a p) as H01. rewrite (proj2 (Z.leb_gt _ _)) by (unfold follow_chain_value; lia). eexists. split; [done|]. exists j. split; [|right; split; [done|]; by exists al, a].
        split; [lia|]. split; [lia|]. intros _. by rewrite (lt_same_r _ _ PO _ _ _ HSa).
      + rewrite (proj2 (Z.leb_le _ _)) by (unfold follow_chain_value; lia). replace (follow_chain_value - (-3 - Z.of_nat al))%Z with (Z.of_nat al) by (unfold follow_chain_value; lia). rewrite z_index_nat. cbn [mbind option_bind].
        destruct HP as (P1 & P2 & P3). apply (key_loop_ok e p j we He HL Hwe HSt (length edges) al a (S j)); [done| |lia|by replace (S j - 1) with j by lia| |rewrite e_edges; lia].
        * split; [lia|]. exists p.1. split; [done|]. by replace (S j - 1) with j by lia.
        * intros i Hi. assert (i = j) as -> by lia. apply (B_total n lt PO R e_two j p j HL); [lia|done|]. by rewrite (lt_same_r _ _ PO _ _ _ HSa). }
  cbn [mbind option_bind]. rewrite Ek. cbn [mbind option_bind]. rewrite Hinf, Hb. eexists. split; [done|]. exists j, s. split; [done|]. split; [done|].
  destruct Hs as [[-> ->]|(Hs & be & b & Hbe & HB & ->)]; [left; split; done|]. right. split; [done|]. exists be, b. split; [done|]. split; [done|]. pose proof (s01 s b p).
  rewrite (proj2 (Z.eqb_neq _ _)) by (unfold root_chain_value; lia). done.
Qed.
Lemma chain_of z (p : nat * nat) : InN n p -> chain (Z.shiftl z HdbscanModel.shift + w p)%Z = z.
Proof.
  intros HP. destruct (wt_range p HP) as [R1 R2]. pose proof (Hbits _ R1 R2) as Hb. unfold chain. rewrite Z.shiftr_div_pow2, Z.shiftl_mul_pow2 by done. rewrite Z.div_add_l by done. rewrite Z.div_small; [lia|].
  split; [apply Hb|]. eapply Z.lt_trans; [apply Hb|]. done.
Qed.

(** ** Sorting *)
Section Sorted.
Context (keys : list Z) (Hkl : length keys = m) (Hkey : forall e p, F !! e = Some p -> exists z, keys !! e = Some (Z.shiftl z HdbscanModel.shift + w p)%Z /\ Key n lt R F int_max p z).
Context (permute0 permute : list nat) (sorted : list Z) (order1 order2 : list nat).
Hypothesis Hsl : length sorted = m.
Hypothesis Hord : forall i j a b, i <= j -> sorted !! i = Some a -> sorted !! j = Some b -> (a <= b)%Z.
Hypothesis HPI : PI edges keys sorted permute.
Hypothesis HFirst : forall i, i < m - 1 -> Start sorted i -> First ltb edges sorted permute i.
Context (rev : list nat).
Hypothesis Hrev : length rev = m /\ forall i d, permute !! i = Some d -> rev !! d = Some i.
Definition idx (i : nat) : nat := default 0 (permute !! i).
Definition rpos (e : nat) : nat := default 0 (rev !! e).
Definition q (i : nat) : nat * nat := default (0, 0) (F !! idx i).
Definition z (i : nat) : Z := chain (default 0%Z (sorted !! i)).
Lemma s_idx i : i < m -> permute !! i = Some (idx i) /\ idx i < m /\ rev !! idx i = Some i /\ F !! idx i = Some (q i).
Proof.
  intros Hi. destruct (pi_lookup edges keys sorted ltac:(by rewrite e_edges) ltac:(by rewrite e_edges) Hord permute i HPI) as (e & we & Ee & Hem & _); [by rewrite e_edges|]. unfold q, idx. rewrite Ee. cbn [default from_option id]. rewrite e_edges in Hem.
  split; [done|]. split; [done|]. split; [by apply Hrev|]. destruct (lookup_lt_is_Some_2 F e Hem) as [p Hp]. by rewrite Hp.
Qed.
Lemma s_pos e : e < m -> exists i, i < m /\ rev !! e = Some i /\ permute !! i = Some e.
Proof.
  intros He. assert (e ∈ permute) as Hin. { rewrite (proj1 HPI), e_edges. apply elem_of_seq. lia. } apply elem_of_list_lookup in Hin as [i Hi]. exists i. split; [|split; [by apply Hrev|done]].
  apply lookup_lt_Some in Hi. by rewrite (pi_length edges keys sorted permute HPI), e_edges in Hi.
Qed.
Lemma s_hidx i : i < m -> idx i < m /\ rpos (idx i) = i.
Proof. intros Hi. destruct (s_idx i Hi) as (_ & H1 & H2 & _). split; [done|]. unfold rpos. by rewrite H2. Qed.
Lemma s_hpos e : e < m -> rpos e < m /\ idx (rpos e) = e.
Proof. intros He. destruct (s_pos e He) as (i & Hi & Hr & Hp). unfold rpos, idx. rewrite Hr. cbn [default from_option id]. by rewrite Hp. Qed.
Lemma s_q i : i < m -> F !! idx i = Some (q i). Proof. intros Hi. apply (s_idx i Hi). Qed.
Lemma s_sorted i : i < m -> sorted !! i = Some (Z.shiftl (z i) HdbscanModel.shift + w (q i))%Z /\ Key n lt R F int_max (q i) (z i).
Proof.
  intros Hi. destruct (s_idx i Hi) as (H1 & _ & _ & H4). destruct (Hkey _ _ H4) as (zz & Hk & HK). rewrite (proj2 HPI _ _ H1) in Hk. unfold z. rewrite Hk. cbn [default from_option id].
  rewrite chain_of; [done|]. by apply (e_pr (idx i)).
Qed.
Lemma s_w i : i < m -> (0 <= w (q i) < 2 ^ 31)%Z.
Proof. intros Hi. apply Hbits; apply wt_range; apply (e_pr (idx i)), s_q, Hi. Qed.
Lemma s_sort i j : i <= j -> j < m -> (z i < z j \/ z i = z j /\ w (q i) <= w (q j))%Z.
Proof.
  intros Hij Hj. destruct (s_sorted i ltac:(lia)) as [Ei _], (s_sorted j Hj) as [Ej _]. pose proof (Hord i j _ _ Hij Ei Ej) as Hle. pose proof (chain_mono _ _ Hle) as Hc.
  rewrite !chain_of in Hc by (eapply e_pr, s_q; lia). destruct (Z.eq_dec (z i) (z j)) as [E1|]; [right|left; lia]. split; [done|]. rewrite E1 in Hle. lia.
Qed.
Lemma s_start i : i < m -> i = 0 \/ z (i - 1) <> z i -> Start sorted i.
Proof.
  intros Hi [->|Hne]; [by left|]. destruct (decide (i = 0)) as [->|]; [by left|]. right. destruct (s_sorted (i - 1) ltac:(lia)) as [E1 _], (s_sorted i Hi) as [E2 _]. do 2 eexists. split; [done|]. split; [done|].
  by rewrite !chain_of by (eapply e_pr, s_q; lia).
Qed.
Lemma s_first i j : i < m -> j < m -> i = 0 \/ z (i - 1) <> z i -> z i = z j -> lt (q j) (q i) = false.
Proof.
  intros Hi Hj Hs Hz. destruct (decide (i = j)) as [->|Hne]; [apply (sw_irrefl _ (po_weak _ _ PO))|].
  assert (i < j) as Hij. { destruct (decide (i < j)) as [|L]; [done|]. exfalso. destruct Hs as [->|Hs]; [lia|]. destruct (s_sort j (i - 1)) as [|[? _]]; [lia|lia| |]; destruct (s_sort (i - 1) i) as [|[? _]]; lia. }
  pose proof (e_pr _ _ (s_q i Hi)) as Pi. pose proof (e_pr _ _ (s_q j Hj)) as Pj. destruct (s_sorted i Hi) as [Ei _], (s_sorted j Hj) as [Ej _].
  destruct (Z.eq_dec (w (q i)) (w (q j))) as [Ew|Ew].
  - assert (sorted !! j = sorted !! i) as Hss by (rewrite Ei, Ej, Hz, Ew; done). pose proof (HFirst i ltac:(lia) (s_start i Hi Hs)) as HF.
    destruct (e_stored _ _ (s_q i Hi)) as (ei & Eei & Si), (e_stored _ _ (s_q j Hj)) as (ej & Eej & Sj).
    rewrite <- (wedge_plt ltb SW wt n NB wsym ej ei _ _ Pj Pi Sj Si). apply (HF j ej ei); [done|by rewrite e_edges| |].
    + unfold at_pos. destruct (s_idx j Hj) as [-> _]. exact Eej.
    + unfold at_pos. destruct (s_idx i Hi) as [-> _]. exact Eei.
  - destruct (lt (q j) (q i)) eqn:El; [|done]. exfalso. assert (lt (q i) (q j) = false) as El2. { destruct (lt (q i) (q j)) eqn:E2; [|done]. pose proof (sw_trans _ (po_weak _ _ PO) _ _ _ El E2) as E3. by rewrite (sw_irrefl _ (po_weak _ _ PO)) in E3. }
    pose proof (e_w _ _ Pj Pi El2) as Hle. destruct (s_sort i j) as [?|[_ ?]]; cbn beta in *; lia.
Qed.
(** ** The two parts of parents *)
Lemma s_vertex v : v < n -> exists e p, F !! e = Some p /\ SamePair (B 0 v) p /\ d_parents st !! (m + P v) = Some (Z.of_nat e).
Proof. intros Hv. rewrite e_len, Nat.add_comm. by apply (hi_vertex _ _ _ _ _ _ _ HH); [lia|]. Qed.
Lemma vertex_parents_ok : exists vp, vertex_parents (length edges) rev (d_parents st) = Some vp /\ length vp = n /\
  forall v, v < n -> exists e p, F !! e = Some p /\ SamePair (B 0 v) p /\ vp !! P v = Some (Z.of_nat (rpos e)).
Proof.
  unfold vertex_parents. rewrite e_edges. pose proof (hi_parents _ _ _ _ _ _ _ HH) as HPl. pose proof e_len as HL. pose proof n2 as Hn2.
  destruct (mapM_total (fun p => i ← z_index p; r ← rev !! i; Some (Z.of_nat r)) (drop m (d_parents st))) as (vp & Hvp & Hvl & Hvs).
  { intros x a Ha. pose proof (lookup_lt_Some _ _ _ Ha) as Hx. rewrite drop_length in Hx. rewrite lookup_drop in Ha. destruct (pos_spec perm Hperm x) as [Hp1 Hp2]; [lia|].
    destruct (s_vertex _ Hp1) as (e & p & He & _ & Hd). rewrite Hp2, Ha in Hd. injection Hd as ->. rewrite z_index_nat. cbn [mbind option_bind]. destruct (s_pos e) as (i & _ & -> & _); [by eapply lookup_lt_Some|]. done. }
  exists vp. split; [done|]. rewrite drop_length in Hvl. split; [lia|]. intros v Hv. destruct (s_vertex v Hv) as (e & p & He & HS & Hd). exists e, p. split; [done|]. split; [done|].
  rewrite (Hvs (P v) (Z.of_nat e)) by (by rewrite lookup_drop). rewrite z_index_nat. cbn [mbind option_bind]. unfold rpos. destruct (s_pos e) as (i & _ & -> & _); [by eapply lookup_lt_Some|]. done.
Qed.
Lemma key_pos p zz : Key n lt R F int_max p zz -> (0 <= zz)%Z.
Proof. intros (j & s & _ & _ & [[_ ->]|(_ & be & b & _ & _ & ->)]); [done|]. pose proof (s01 s b p). lia. Qed.
Lemma key_not_top p zz : Key n lt R F int_max p zz -> zz <> int_max -> Z.to_nat (zz / 2) < m.
Proof.
  intros (j & s & _ & _ & [[_ ->]|(_ & be & b & Hbe & _ & ->)]) Hne; [done|]. pose proof (half_key be s b p) as Hh. unfold z_index in Hh. destruct (0 <=? _)%Z; [|done]. injection Hh as ->. by eapply lookup_lt_Some.
Qed.
Lemma key_top p zz : Key n lt R F int_max p zz -> (zz <= int_max)%Z.
Proof.
  intros (j & s & _ & _ & [[_ ->]|(_ & be & b & Hbe & _ & ->)]); [done|]. pose proof (s01 s b p). pose proof e_top. apply lookup_lt_Some in Hbe. lia.
Qed.
Lemma edge_parents_ok : exists ep, mapM (edge_parent edges sorted rev) (seq 0 (length edges)) = Some ep /\ length ep = m /\ ep !! (m - 1) = Some (-1)%Z /\
  forall i, i < m - 1 -> ep !! i = Some (Z.of_nat (if (z i =? z (S i))%Z then S i else rpos (Z.to_nat (z i / 2)))).
Proof.
  assert (forall i, i < m - 1 -> edge_parent edges sorted rev i = Some (Z.of_nat (if (z i =? z (S i))%Z then S i else rpos (Z.to_nat (z i / 2))))) as Hin.
  { intros i Hi. unfold edge_parent. rewrite e_edges. rewrite (proj2 (Nat.eqb_neq _ _)) by lia. destruct (s_sorted i ltac:(lia)) as [Ei Ki], (s_sorted (S i) ltac:(lia)) as [Ej Kj]. rewrite Ei, Ej. cbn [mbind option_bind].
    rewrite !chain_of by (eapply e_pr, s_q; lia). destruct (Z.eqb_spec (z i) (z (S i))) as [|Hne]; [done|].
    assert (z i <> int_max) as Hnt. { intros E1. pose proof (key_top _ _ Kj). destruct (s_sort i (S i)) as [|[? _]]; lia. }
    pose proof (key_not_top _ _ Ki Hnt) as Hlt. pose proof (key_pos _ _ Ki) as H0. assert (0 <= z i / 2)%Z by (apply Z.div_pos; lia). unfold z_index. rewrite (proj2 (Z.leb_le _ _)) by done. cbn [mbind option_bind].
    destruct (s_pos _ Hlt) as (r & _ & Hr & _). unfold rpos. by rewrite Hr. }
  assert (0 < m) as Hm by (rewrite e_len; pose proof n2; lia).
  assert (edge_parent edges sorted rev (m - 1) = Some (-1)%Z) as Hlast. { unfold edge_parent. by rewrite e_edges, Nat.eqb_refl. }
  rewrite e_edges. destruct (mapM_total (edge_parent edges sorted rev) (seq 0 m)) as (ep & Hep & Hel & Hes).
  { intros i a Ha. apply lookup_seq in Ha as [-> Ha]. cbn [Nat.add]. destruct (decide (i = m - 1)) as [->|]; [by rewrite Hlast|]. rewrite Hin by lia. done. }
  rewrite seq_length in Hel. exists ep. split; [done|]. split; [done|]. split.
  - rewrite (Hes (m - 1) (m - 1)); [done|]. rewrite lookup_seq_lt by lia. done.
  - intros i Hi. rewrite (Hes i i); [by apply Hin|]. rewrite lookup_seq_lt by lia. done.
Qed.

(** ** The result *)
Section Assemble.
Context (ep vp : list Z) (Hepl : length ep = m) (Hlast : ep !! (m - 1) = Some (-1)%Z)
  (Hep : forall i, i < m - 1 -> ep !! i = Some (Z.of_nat (if (z i =? z (S i))%Z then S i else rpos (Z.to_nat (z i / 2)))))
  (Hvpl : length vp = n) (Hvp : forall v, v < n -> exists e p, F !! e = Some p /\ SamePair (B 0 v) p /\ vp !! P v = Some (Z.of_nat (rpos e))).
Context (es : list (wedge W)) (Hesl : length es = m) (Hes : forall i e, permute !! i = Some e -> es !! i = edges !! e).
Notation par := (ep ++ vp).
Definition leaf (v : nat) : nat := m + P v.
Lemma a_m : 0 < m. Proof. rewrite e_len. pose proof n2. lia. Qed.
Lemma a_len : length par = m + n. Proof. rewrite app_length. lia. Qed.
Lemma a_root : par !! (m - 1) = Some (-1)%Z. Proof. pose proof a_m. rewrite lookup_app_l by lia. done. Qed.
Lemma a_pe i : i < m - 1 -> par !! i = Some (Z.of_nat (if (z i =? z (S i))%Z then S i else rpos (Z.to_nat (z i / 2)))).
Proof. intros Hi. rewrite lookup_app_l by lia. by apply Hep. Qed.
Lemma a_pv v : v < n -> exists e p, F !! e = Some p /\ SamePair (B 0 v) p /\ par !! leaf v = Some (Z.of_nat (rpos e)).
Proof. intros Hv. destruct (Hvp v Hv) as (e & p & He & HS & Hd). exists e, p. split; [done|]. split; [done|]. unfold leaf. rewrite lookup_app_r by lia. by replace (m + P v - length ep) with (P v) by lia. Qed.
Lemma a_leaf x : m <= x < m + n -> exists v, v < n /\ leaf v = x.
Proof. intros Hx. destruct (pos_spec perm Hperm (x - m)) as [H1 H2]; [lia|]. eexists. split; [exact H1|]. unfold leaf. lia. Qed.
Lemma a_spans : Spans n F.
Proof. split; [apply (ri_proper _ _ _ _ _ _ _ HRI)|]. intros a b Ha Hb. apply (ri_conn _ _ _ _ _ _ _ HRI); [done..|]. by apply e_one. Qed.
Lemma a_lev e p : F !! e = Some p -> exists j, Lev j p. Proof. intros He. destruct (e_lev e p He) as (j & Hj & _). by exists j. Qed.
Lemma a_height i : i < m -> exists we, es !! i = Some we /\ Stored ltb wt we (q i).
Proof. intros Hi. destruct (s_idx i Hi) as (H1 & _ & _ & H4). destruct (e_stored _ _ H4) as (we & H5 & H6). exists we. split; [|done]. by rewrite (Hes _ _ H1). Qed.
Lemma a_le i j ei ej : i < m -> j < m -> es !! i = Some ei -> es !! j = Some ej -> (w (q i) <= w (q j))%Z -> ltb (w_weight ej) (w_weight ei) = false.
Proof.
  intros Hi Hj Ei Ej Hle. destruct (a_height i Hi) as (ei' & E1 & Si), (a_height j Hj) as (ej' & E2 & Sj). rewrite Ei in E1. injection E1 as <-. rewrite Ej in E2. injection E2 as <-.
  destruct (stored_range _ _ (e_pr _ _ (s_q i Hi)) Si) as (R1 & R2 & R3), (stored_range _ _ (e_pr _ _ (s_q j Hj)) Sj) as (R4 & R5 & R6). rewrite Hbits_lt by done. apply Z.ltb_ge. rewrite R3, R6. exact Hle.
Qed.
Lemma conn_map (f : nat -> nat) (R1 R2 : nat -> nat -> Prop) : (forall a b, R1 a b -> R2 (f a) (f b)) -> forall a b, Conn R1 a b -> Conn R2 (f a) (f b).
Proof. intros Hf a b Hc. induction Hc as [x y Hxy|x|x y _ IH|x y z' _ IH1 _ IH2]; [apply conn_step; by apply Hf|apply conn_refl|by apply conn_sym|by eapply conn_trans]. Qed.

Notation HNR := (ri_norepeat _ _ _ _ _ _ _ HRI).
Notation HKr := (ri_kruskal _ _ _ _ _ _ _ HRI).
Notation Hzk := (fun i Hi => proj2 (s_sorted i Hi)).
Lemma a_parent i : i < m - 1 -> exists i', par !! i = Some (Z.of_nat i') /\ i < i' < m /\ (w (q i) <= w (q i'))%Z.
Proof.
  intros Hi. destruct (parent_ok n lt PO R e_two e_one (Nat.lt_0_succ k) F e_len a_lev e_mono e_cover HKr w e_w int_max e_top idx rpos q z s_hidx s_hpos s_q Hzk s_sort s_first par leaf a_len a_pe a_pv a_leaf i Hi) as (i' & H1 & H2 & H3 & _).
  by exists i'.
Qed.
Lemma a_point v : v < n -> exists j, par !! leaf v = Some (Z.of_nat j) /\ j < m.
Proof.
  intros Hv. destruct (leaf_parent n lt PO R e_two (Nat.lt_0_succ k) F idx rpos q s_hpos s_q par leaf a_pv v Hv) as (x & Hx & Hp & _). by exists x.
Qed.
Lemma a_two e : e < m -> length (filter (eq (Z.of_nat e)) par) <= 2.
Proof.
  intros He. pose proof (children_two n lt PO R e_two e_one (Nat.lt_0_succ k) F e_len a_lev e_mono e_cover HNR HKr w e_w int_max e_top idx rpos q z s_hidx s_hpos s_q Hzk s_sort s_first par leaf a_len a_root a_pe a_pv a_leaf e He) as H2.
  unfold children in H2. rewrite <- a_len in H2. etransitivity; [|exact H2]. apply Nat.eq_le_incl. clear. generalize par. clear. intros l.
  assert (forall l1 l2 : list Z, length (filter (eq (Z.of_nat e)) l2) = length (filter (fun x => (l1 ++ l2) !! x = Some (Z.of_nat e)) (seq (length l1) (length l2)))) as HG.
  { intros l1 l2. revert l1. induction l2 as [|y l2 IH]; intros l1; [done|]. cbn [length seq]. rewrite !filter_cons. specialize (IH (l1 ++ [y])). rewrite <- app_assoc in IH. cbn [app] in IH. rewrite app_length, Nat.add_1_r in IH.
    rewrite lookup_app_r by lia. rewrite Nat.sub_diag. cbn [lookup list_lookup]. destruct (decide (Z.of_nat e = y)), (decide (Some y = Some (Z.of_nat e))); cbn [length]; congruence. }
  apply (HG [] l).
Qed.
Lemma a_range x p : par !! x = Some p -> x <> m - 1 -> exists e, e < m /\ p = Z.of_nat e.
Proof.
  intros Hp Hx. pose proof (lookup_lt_Some _ _ _ Hp) as Hl. rewrite a_len in Hl. destruct (decide (x < m)) as [L|L].
  - destruct (a_parent x) as (i' & E1 & Hi' & _); [lia|]. rewrite Hp in E1. injection E1 as ->. exists i'. split; [lia|done].
  - destruct (a_leaf x) as (v & Hv & <-); [lia|]. destruct (a_point v Hv) as (j & E1 & Hj). rewrite Hp in E1. injection E1 as ->. by exists j.
Qed.
Lemma a_binary e : e < m -> length (filter (eq (Z.of_nat e)) par) = 2.
Proof.
  intros He. pose proof a_m as Hm.
  assert (Hcnt : forall v, cnt (Some v) (Some <$> par) = length (filter (eq v) par)).
  { intros v. unfold cnt. generalize par. clear. induction l as [|y l IH]; [done|]. cbn [fmap list_fmap]. rewrite !filter_cons. destruct (decide (Some v = Some y)), (decide (v = y)); cbn [length]; congruence. }
  assert (length (filter (eq (-1)%Z) par) <= 1) as H1.
  { assert (forall l : list Z, (forall x y, l !! x = Some (-1)%Z -> l !! y = Some (-1)%Z -> x = y) -> length (filter (eq (-1)%Z) l) <= 1) as HG.
    { induction l as [|y l IH]; intros Hu; [cbn; lia|]. rewrite filter_cons. destruct (decide (_ = y)) as [<-|].
      - cbn [length]. destruct (filter (eq (-1)%Z) l) as [|u l'] eqn:Ef; [cbn; lia|]. exfalso. assert (u ∈ filter (eq (-1)%Z) l) as Hu2 by (rewrite Ef; by left). apply elem_of_list_filter in Hu2 as [<- Hu2].
        apply elem_of_list_lookup in Hu2 as [x Hx]. by specialize (Hu 0 (S x) eq_refl Hx).
      - apply IH. intros x y' Hx Hy. by injection (Hu (S x) (S y') Hx Hy). }
    apply HG. intros x y Hx Hy. assert (forall x, par !! x = Some (-1)%Z -> x = m - 1) as Hu. { intros x' Hx'. destruct (decide (x' = m - 1)) as [|Hne]; [done|]. destruct (a_range x' _ Hx' Hne) as (e' & _ & E'). lia. }
    by rewrite (Hu x Hx), (Hu y Hy). }
  pose proof (cnt_total m (Some <$> par)) as HT. rewrite fmap_length, a_len, Hcnt in HT.
  rewrite <- Hcnt. apply (sum_tight (fun e => cnt (Some (Z.of_nat e)) (Some <$> par)) (seq 0 m)).
  - intros e' He'%elem_of_seq. rewrite Hcnt. apply a_two. lia.
  - rewrite seq_length. assert (m + n <= length (filter (eq (-1)%Z) par) + sum_list ((fun e => cnt (Some (Z.of_nat e)) (Some <$> par)) <$> seq 0 m)) as HT'.
    { apply HT. intros p Hp. apply elem_of_list_fmap in Hp as (p' & -> & Hp'). apply elem_of_list_lookup in Hp' as [x Hx]. destruct (decide (x = m - 1)) as [->|Hne].
      - left. rewrite a_root in Hx. congruence.
      - right. destruct (a_range x _ Hx Hne) as (e' & He' & ->). by exists e'. }
    revert HT' H1. generalize (length (filter (eq (-1)%Z) par)) (sum_list ((fun e => cnt (Some (Z.of_nat e)) (Some <$> par)) <$> seq 0 m)). pose proof e_len. pose proof n2. clear -H0 Hm H1. intros. lia.
  - apply elem_of_seq. lia.
Qed.
Lemma a_dendrogram : Dendrogram ltb n (pair_weight dl metric) par (w_weight <$> es).
Proof.
  pose proof e_len as HL. pose proof n2 as Hn2. pose proof a_m as Hm. constructor.
  - rewrite a_len. lia.
  - by rewrite fmap_length, Hesl.
  - replace (n - 2) with (m - 1) by lia. apply a_root.
  - intros i Hi. destruct (a_parent i) as (j & Hp & Hj & Hw); [lia|]. destruct (a_height i) as (ei & Ei & _); [lia|]. destruct (a_height j) as (ej & Ej & _); [lia|].
    exists j, (w_weight ei), (w_weight ej). rewrite !list_lookup_fmap, Ei, Ej. split_and!; [done|lia|lia|done|done|]. apply (a_le i j); [lia|lia|done..].
  - intros v Hv. destruct (pos_spec perm Hperm v Hv) as [H1 H2]. destruct (a_point _ H1) as (j & Hj & Hlt). unfold leaf in Hj. rewrite H2, HL in Hj. exists j. split; [done|]. lia.
  - intros j Hj. apply a_binary. lia.
  - intros u v h Hu Hv Hne. destruct (pos_spec perm Hperm u Hu) as [Pu1 Pu2], (pos_spec perm Hperm v Hv) as [Pv1 Pv2].
    assert (Hok : forall p p', Pr n p -> Pr n p' -> (w p <= w p')%Z -> ltb h (wt p') = false -> ltb h (wt p) = false).
    { intros p p' Hp Hp' Hw Hh. apply (w_trans ltb SW (wt p) (wt p') h) in Hh; [done|]. destruct (wt_range p Hp), (wt_range p' Hp'). rewrite Hbits_lt by done. apply Z.ltb_ge. exact Hw. }
    pose proof (clusters n lt PO R e_two e_one (Nat.lt_0_succ k) F e_len a_lev e_mono e_cover HNR HKr a_spans w e_w int_max e_top idx rpos q z s_hidx s_hpos s_q Hzk s_sort s_first par leaf a_len a_root a_pe a_pv a_leaf
      (fun p => ltb h (wt p) = false) Hok (pos perm u) (pos perm v) Pu1 Pv1 ltac:(congruence)) as HC. unfold leaf in HC. rewrite Pu2, Pv2, HL in HC.
    assert (forall e we, es !! e = Some we -> e < m -> ltb h (w_weight we) = ltb h (wt (q e))) as Hhe.
    { intros e we He Hem. destruct (a_height e Hem) as (we' & E1 & _ & _ & Hs). rewrite He in E1. injection E1 as <-. apply (ltb_congr ltb SW); [apply (weq_refl ltb SW)|done]. }
    split.
    + intros (e & he & A1 & A2 & Hhe1 & Hh). rewrite list_lookup_fmap in Hhe1. destruct (es !! e) as [we|] eqn:Ee; [|done]. injection Hhe1 as <-. pose proof (lookup_lt_Some _ _ _ Ee) as Hem. rewrite Hesl in Hem.
      rewrite <- Pu2, <- Pv2. eapply (conn_map P); [|apply HC; exists e; split_and!; [lia|done|done|by rewrite <- (Hhe e we)]].
      intros a b [(Ha & Hb & Hab) Hab2]. cbn [fst snd] in *. split_and!; [by apply (ren_lt perm Hperm)|by apply (ren_lt perm Hperm)| |exact Hab2]. intros E1. apply Hab. by apply (ren_inj perm Hperm).
    + intros Hc. destruct (proj2 HC) as (e & Hem & A1 & A2 & Hh).
      { eapply (conn_map (pos perm)); [|exact Hc]. intros a b (Ha & Hb & Hab & Hd). destruct (pos_spec perm Hperm a Ha) as [Pa1 Pa2], (pos_spec perm Hperm b Hb) as [Pb1 Pb2]. split; [split_and!; [done|done|cbn; congruence]|].
        unfold BoruvkaSearch.wt. cbn [fst snd]. by rewrite Pa2, Pb2. }
      destruct (a_height e) as (we & Ee & _); [lia|]. exists e, (w_weight we). rewrite list_lookup_fmap, Ee. split_and!; [done|done|done|]. rewrite (Hhe e we); [done|done|lia].
Qed.
Lemma a_result : exists fe, mapM (finalize_edge T) es = Some fe /\ w_weight <$> fe = w_weight <$> es /\ Result perm ltb dl metric fe.
Proof.
  pose proof e_len as HL.
  assert (Hfin : forall i e0, es !! i = Some e0 -> exists e, finalize_edge T e0 = Some e /\ ends e = ren perm (q i) /\ w_weight e = w_weight e0 /\ weq ltb (w_weight e) (wt (q i)) = true).
  { intros i e0 Hi. pose proof (lookup_lt_Some _ _ _ Hi) as Him. rewrite Hesl in Him. destruct (a_height i Him) as (e0' & E1 & E3 & E4 & E5). rewrite Hi in E1. injection E1 as <-.
    destruct (e_pr _ _ (s_q i Him)) as (P1 & P2 & _). destruct (q i) as [p1 p2]. cbn [fst snd] in *.
    unfold finalize_edge. rewrite E3, E4, !Nat2N.id. rewrite !(value le vol perm T ltb zero inf dl dv metric cap H MI) by done. eexists. split; [done|]. cbn [w_weight]. split; [|done]. unfold ends, ren. cbn. by rewrite !Nat2N.id. }
  destruct (mapM_total (finalize_edge T) es) as (fe & Hfe & Hfl & Hfs). { intros i e0 Hi. destruct (Hfin i e0 Hi) as (e & -> & _). done. }
  assert (Hfe2 : forall i e, fe !! i = Some e -> exists e0, es !! i = Some e0 /\ i < m /\ ends e = ren perm (q i) /\ w_weight e = w_weight e0 /\ weq ltb (w_weight e) (wt (q i)) = true).
  { intros i e Hi. pose proof (lookup_lt_Some _ _ _ Hi) as Him. rewrite Hfl in Him. destruct (lookup_lt_is_Some_2 es i Him) as [e0 He0]. destruct (Hfin i e0 He0) as (e' & E1 & E2). exists e0. split; [done|]. split; [lia|].
    rewrite (Hfs i e0 He0), E1 in Hi. by injection Hi as ->. }
  exists fe. split; [done|]. split.
  { apply list_eq. intros i. rewrite !list_lookup_fmap. destruct (fe !! i) as [e|] eqn:Ei.
    - destruct (Hfe2 i e Ei) as (e0 & -> & _ & _ & Hw & _). cbn. by rewrite Hw.
    - apply lookup_ge_None in Ei. rewrite (lookup_ge_None_2 es i) by lia. done. }
  assert (Hql : forall i p, (q <$> seq 0 m) !! i = Some p -> i < m /\ p = q i).
  { intros i p Hi. rewrite list_lookup_fmap in Hi. destruct (seq 0 m !! i) as [x|] eqn:Ex; [|done]. apply lookup_seq in Ex as [-> Hx]. by injection Hi as <-. }
  assert (Hqin : forall p, p ∈ (q <$> seq 0 m) <-> p ∈ F).
  { intros p. split.
    - intros Hp. apply elem_of_list_lookup in Hp as [i Hi]. destruct (Hql i p Hi) as [Him ->]. eapply elem_of_list_lookup_2. by apply s_q.
    - intros Hp. apply elem_of_list_lookup in Hp as [e He]. destruct (s_hpos e) as [H1 H2]; [by eapply lookup_lt_Some|]. apply elem_of_list_fmap. exists (rpos e). split; [|apply elem_of_seq; lia].
      pose proof (s_q _ H1) as Hq. rewrite H2, He in Hq. congruence. }
  exists (q <$> seq 0 m). split_and!.
  - intros i j e f Hi Hj HS. destruct (Hql i e Hi) as [Hi' ->], (Hql j f Hj) as [Hj' ->]. pose proof (HNR _ _ _ _ (s_q i Hi') (s_q j Hj') HS) as E1. destruct (s_hidx i Hi') as [_ <-], (s_hidx j Hj') as [_ <-]. by rewrite E1.
  - by rewrite fmap_length, seq_length.
  - destruct a_spans as [S1 S2]. split; [intros a b Hab; apply S1; by apply Hqin|]. intros a b Ha Hb. eapply conn_mono; [|by apply S2]. intros x y Hxy. by apply Hqin.
  - intros e He. by apply HKr, Hqin.
  - apply list_eq. intros i. rewrite !list_lookup_fmap. destruct (fe !! i) as [e|] eqn:Ei.
    + destruct (Hfe2 i e Ei) as (e0 & _ & Him & Ee & _). rewrite lookup_seq_lt by lia. cbn. by rewrite Ee.
    + apply lookup_ge_None in Ei. rewrite (lookup_ge_None_2 (seq 0 m) i) by (rewrite seq_length; lia). done.
  - intros e He. apply elem_of_list_lookup in He as [i Hi]. destruct (Hfe2 i e Hi) as (e0 & _ & Him & -> & _ & Hw). exact Hw.
Qed.
End Assemble.
End Sorted.

Lemma reorder_ok (post : list (wedge W) -> list Z -> list W -> Prop) : (forall es par heights, Result perm ltb dl metric es -> heights = w_weight <$> es -> Dendrogram ltb n (pair_weight dl metric) par heights -> post es par heights) ->
  reorder T ltb inf bits st post.
Proof.
  intros Hpost. unfold reorder. fold sided'. pose proof e_len as HL. pose proof e_edges as HE. split; [rewrite (hi_end _ _ _ _ _ _ _ HH), (hi_sided _ _ _ _ _ _ _ HH); lia|].
  destruct (mapM_total (edge_key ltb inf bits edges sided') (seq 0 (length edges))) as (keys & -> & Hkl & Hks).
  { intros i a Ha. apply lookup_seq in Ha as [-> Ha]. cbn [Nat.add]. destruct (lookup_lt_is_Some_2 F i) as [p Hp]; [lia|]. destruct (edge_key_ok i p Hp) as (z & -> & _). done. }
  rewrite seq_length in Hkl. intros permute0 sorted order1 order2 garbage (HS1 & HS2 & HS3) HO1 HO2 HG.
  assert (Hkey : forall e p, F !! e = Some p -> exists z, keys !! e = Some (Z.shiftl z HdbscanModel.shift + w p)%Z /\ Key n lt R F int_max p z).
  { intros e p He. destruct (edge_key_ok e p He) as (z & Ez & Hz). exists z. split; [|done]. rewrite (Hks e e); [done|]. apply lookup_lt_Some in He. rewrite lookup_seq_lt by lia. done. }
  apply mapM_Some_1 in HS2. assert (length sorted = length edges) as Hsl. { apply Forall2_length in HS2. rewrite <- HS2. apply Permutation_length in HS1. rewrite seq_length in HS1. lia. }
  assert (Hord : forall i j a b, i <= j -> sorted !! i = Some a -> sorted !! j = Some b -> (a <= b)%Z).
  { apply Sorted_StronglySorted in HS3; [|intros ???; apply Z.le_trans]. clear -HS3. induction HS3 as [|x l Hs IH Hall]; [done|]. intros [|i] [|j] a b Hij Ha Hb; cbn in *; [injection Ha as ->; injection Hb as ->; lia| |lia|].
    - injection Ha as ->. rewrite Forall_forall in Hall. apply Hall. by eapply elem_of_list_lookup_2.
    - apply (IH i j); [lia|done..]. }
  assert (PI edges keys sorted permute0) as HP0.
  { split; [by rewrite HS1, Hkl|]. intros i e He. destruct (Forall2_lookup_l _ _ _ _ _ HS2 He) as (x & Hx & Hkx). by rewrite Hx. }
  destruct (fix_order_ok ltb edges keys sorted SW Hkl Hsl Hord order1) with (perm := permute0) as (permute & -> & HP1 & HF1 & _); [rewrite HO1; apply NoDup_seq| |done|].
  { intros i Hi. rewrite HO1 in Hi. apply elem_of_seq in Hi. lia. }
  cbn [mbind option_bind]. pose proof (pi_length _ _ _ _ HP1) as Hpl. pose proof (pi_lookup edges keys sorted Hkl Hsl Hord permute) as Hplk.
  assert (NoDup permute) as HND by (rewrite (proj1 HP1); apply NoDup_seq).
  unfold rev_permute. destruct (par_writes_correct (fun i => permute !! i) (fun i => Some i) order2 garbage) as (rev & -> & Hrl & Hrs & _); [rewrite HO2; apply NoDup_seq| | |].
  { intros i Hi. rewrite HO2 in Hi. apply elem_of_seq in Hi. destruct (Hplk i HP1) as (e & we & E1 & Hem & _); [lia|]. exists e, i. split; [done|]. split; [done|]. lia. }
  { intros i j d Hi Hj E1 E2. by eapply NoDup_lookup. }
  cbn [mbind option_bind].
  assert (Hrev : length rev = m /\ forall i d, permute !! i = Some d -> rev !! d = Some i).
  { split; [lia|]. intros i d Hd. apply Hrs; [|done]. rewrite HO2. apply elem_of_seq. apply lookup_lt_Some in Hd. lia. }
  assert (HFirst : forall i, i < m - 1 -> Start sorted i -> First ltb edges sorted permute i). { intros i Hi HS. apply HF1; [|done]. rewrite HO1. apply elem_of_seq. lia. }
  assert (length keys = m) as Hkm by lia. assert (length sorted = m) as Hsm by lia.
  destruct (vertex_parents_ok keys Hkm Hkey permute sorted Hsm Hord HP1 HFirst rev Hrev) as (vp & -> & Hvl & Hvs). cbn [mbind option_bind].
  destruct (edge_parents_ok keys Hkm Hkey permute sorted Hsm Hord HP1 HFirst rev Hrev) as (ep & -> & Hel & Hlast & Heps). cbn [mbind option_bind].
  destruct (mapM_total (fun i => edges !! i) permute) as (es & -> & Hesl & Hess).
  { intros i e Hi. destruct (Hplk i HP1) as (e' & we & E1 & _ & E2 & _); [apply lookup_lt_Some in Hi; lia|]. rewrite Hi in E1. injection E1 as <-. by rewrite E2. }
  cbn [mbind option_bind]. assert (length es = m) as Hesm by lia.
  destruct (a_result keys Hkm Hkey permute sorted Hsm Hord HP1 HFirst rev Hrev ep vp Hel Heps Hvl Hvs es Hesm Hess) as (fe & -> & Hw & HR). cbn [mbind option_bind]. apply Hpost; [done|done|].
  by apply (a_dendrogram keys Hkm Hkey permute sorted Hsm Hord HP1 HFirst rev Hrev ep vp).
Qed.
End End.

Lemma hdbscan_ok shared bounded fuel order par0 garbage edges0 map0 sided0 parents0 (post : list (wedge W) -> list Z -> list W -> Prop) : Nat.log2 n <= fuel -> order ≡ₚ seq 0 (2 * (n - 1)) -> length par0 = 2 * n - 1 -> length garbage = n - 1 -> length edges0 = n - 1 ->
  length map0 = n -> length sided0 = n - 1 -> length parents0 = 2 * n - 1 ->
  (forall es par heights, Result perm ltb dl metric es -> heights = w_weight <$> es -> Dendrogram ltb n (pair_weight dl metric) par heights -> post es par heights) ->
  hdbscan T ltb zero inf dl dv metric cap shared bounded bits fuel order par0 garbage edges0 map0 sided0 parents0 post.
Proof.
  intros Hf HO HP0 HG HE HM HSd HPl Hpost. unfold hdbscan. destruct (findParents_ok le vol perm T VT n2 order par0 HO HP0) as (par & -> & _ & HP & _). rewrite (vt_size _ _ _ _ VT).
  pose proof (init_ok le vol perm T ltb zero inf dl dv metric cap H MI edges0 garbage HE HG) as HRI. pose proof (ri_comps _ _ _ _ _ _ _ HRI) as Hc0. cbn [m_num Nat.add] in Hc0.
  eapply (hloop_ok le vol perm T ltb zero inf dl dv metric cap H MI shared bounded NB30 par HP fuel _ 0 []).
  - constructor; cbn [d_m d_map d_sided d_parents d_later d_start d_end]; try done; try lia.
  - cbn [HdbscanTree.stage]. rewrite Hc0. split; [apply n2|]. destruct (Nat.log2_spec n) as [_ Hl]; [pose proof n2; lia|]. eapply Nat.lt_le_trans; [exact Hl|]. apply Nat.pow_le_mono_r; lia.
  - intros st k F HH H1. by apply (reorder_ok st k F HH H1).
Qed.
End Final.
