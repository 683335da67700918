(** The reordering kernel for every interleaving. *)
From Verif Require Import CrsProof.
From Verif Require Export ReorderModel.

Lemma sum_fmap_submseteq {A} (f : A -> nat) (l k : list A) : l ⊆+ k -> sum_list (f <$> l) <= sum_list (f <$> k).
Proof. induction 1; csimpl; unfold id in *; lia. Qed.
Lemma sum_fmap_perm {A} (f : A -> nat) (l k : list A) : l ≡ₚ k -> sum_list (f <$> l) = sum_list (f <$> k).
Proof. induction 1; csimpl; unfold id in *; lia. Qed.
Lemma elem_filter {A} (f : A -> bool) l x : x ∈ List.filter f l <-> x ∈ l /\ f x = true.
Proof. rewrite !elem_of_list_In. apply List.filter_In. Qed.

Section Reorder.
Variables (offs : list nat) (minpts : nat).
Notation N := (length offs - 1).
Notation sz := (csize offs).
Notation dense := (is_dense offs minpts).
Notation nd := (num_dense_points offs minpts).
Notation start c := (default 0 (offs !! c)).
Variable n : nat.
Hypothesis offs_ok : offs !! 0 = Some 0 /\ offs !! N = Some n /\ (forall c a b, offs !! c = Some a -> offs !! S c = Some b -> a <= b).

Lemma offs_at c : c <= N -> offs !! c = Some (start c).
Proof.
  intros Hc. destruct (offs !! c) eqn:E; [done|]. apply lookup_ge_None in E. destruct offs_ok as [H _].
  apply lookup_lt_Some in H. lia.
Qed.
Lemma start_sum c : c <= N -> start c = sum_list (sz <$> seq 0 c).
Proof.
  induction c as [|c IH]; intros Hc; [by destruct offs_ok as [-> _]|].
  rewrite seq_S, fmap_app, sum_list_with_app. simpl. rewrite <- IH by lia. unfold csize.
  pose proof (offs_at c ltac:(lia)) as E1. pose proof (offs_at (S c) Hc) as E2.
  destruct offs_ok as (_ & _ & H). specialize (H c _ _ E1 E2). lia.
Qed.
Lemma total_sum : sum_list (sz <$> seq 0 N) = n.
Proof. rewrite <- start_sum by lia. destruct offs_ok as (_ & E & _). by rewrite E. Qed.
Lemma cell_bound c : c < N -> start c + sz c <= n /\ start (S c) = start c + sz c.
Proof.
  intros Hc. pose proof (start_sum (S c) ltac:(lia)) as E. pose proof (start_sum c ltac:(lia)) as E'.
  rewrite seq_S, fmap_app, sum_list_with_app in E. simpl in E.
  assert (sum_list (sz <$> seq 0 (S c)) <= n) as HL.
  { rewrite <- total_sum. apply sum_fmap_submseteq. replace N with (S c + (N - S c)) by lia. rewrite seq_app.
    apply submseteq_inserts_r. done. }
  rewrite <- start_sum in HL by lia. lia.
Qed.

Notation cell_of src c := (segment offs src c).
Lemma cell_len {A} (src : list A) c : length src = n -> c < N -> length (cell_of src c) = sz c.
Proof. intros Hl Hc. destruct (cell_bound c Hc). unfold segment. rewrite take_length, drop_length. lia. Qed.

Lemma dl_sum dl : NoDup dl -> (forall c, c ∈ dl -> c < N /\ dense c = true) -> sum_list (sz <$> dl) <= nd.
Proof.
  intros HN HD. apply sum_fmap_submseteq, NoDup_submseteq; [done|]. intros c Hc. destruct (HD c Hc). apply elem_filter.
  split; [apply elem_of_seq; lia|done].
Qed.
Lemma split_sum : nd + sum_list (sz <$> List.filter (fun c => negb (dense c)) (seq 0 N)) = n.
Proof.
  rewrite <- total_sum. unfold num_dense_points. generalize (seq 0 N). intros l. induction l as [|c l IH]; [done|]. cbn [List.filter].
  destruct (dense c); cbn [negb]; rewrite !fmap_cons; csimpl; lia.
Qed.
Lemma sl_sum sl : NoDup sl -> (forall c, c ∈ sl -> c < N /\ dense c = false) -> nd + sum_list (sz <$> sl) <= n.
Proof.
  intros HN HD. rewrite <- split_sum. apply Nat.add_le_mono_l. apply sum_fmap_submseteq, NoDup_submseteq; [done|].
  intros c Hc. destruct (HD c Hc) as [? E]. apply elem_filter. split; [apply elem_of_seq; lia|]. by rewrite E.
Qed.

Variables (idx pm : list nat).
Hypothesis idx_len : length idx = n.
Hypothesis pm_len : length pm = n.

(** where the points of a started cell go; [dl] and [sl] are the dense and sparse cells in the order of their fetch-adds *)
Definition Base (dl sl : list nat) (c b : nat) : Prop :=
  (dense c = true /\ exists p, dl !! p = Some c /\ b = sum_list (take p (sz <$> dl))) \/
  (dense c = false /\ exists p, sl !! p = Some c /\ b = nd + sum_list (take p (sz <$> sl))).
Definition Written (arr : list (option nat)) (src : list nat) (c b k : nat) : Prop :=
  forall t, t < k -> exists v, src !! (start c + t) = Some v /\ arr !! (b + t) = Some (Some v).
Definition RPc (s : rstate) (dl sl : list nat) (c : nat) (pc : rpc) : Prop :=
  match pc with
  | R0 => c ∉ dl /\ c ∉ sl
  | R1 j off => exists b k, Base dl sl c b /\ k < sz c /\ j = start c + k /\ off = b + k /\
       Written (r_idx s) idx c b k /\ Written (r_perm s) pm c b k
  | R2 j off => exists b k, Base dl sl c b /\ k < sz c /\ j = start c + k /\ off = b + k /\
       Written (r_idx s) idx c b (S k) /\ Written (r_perm s) pm c b k
  | RDone => exists b, Base dl sl c b /\ Written (r_idx s) idx c b (sz c) /\ Written (r_perm s) pm c b (sz c)
  end.
Record RInv (dl sl : list nat) (s : rstate) : Prop := {
  ri_nd : NoDup dl; ri_ns : NoDup sl;
  ri_dl : forall c, c ∈ dl -> c < N /\ dense c = true;
  ri_sl : forall c, c ∈ sl -> c < N /\ dense c = false;
  ri_d : r_dense s = sum_list (sz <$> dl);
  ri_s : r_sparse s = nd + sum_list (sz <$> sl);
  ri_i : length (r_idx s) = n; ri_p : length (r_perm s) = n; ri_t : length (r_thr s) = N;
  ri_pc : forall c pc, r_thr s !! c = Some pc -> RPc s dl sl c pc }.

Lemma Base_bound dl sl s c b k : RInv dl sl s -> Base dl sl c b -> k < sz c -> b + k < n /\ (dense c = true -> b + k < nd) /\ (dense c = false -> nd <= b).
Proof.
  intros I HB Hk. pose proof (dl_sum dl (ri_nd _ _ _ I) (ri_dl _ _ _ I)). pose proof (sl_sum sl (ri_ns _ _ _ I) (ri_sl _ _ _ I)).
  destruct HB as [[Hd (p & Hp & ->)]|[Hd (p & Hp & ->)]]; rewrite Hd.
  - assert ((sz <$> dl) !! p = Some (sz c)) as E by (by rewrite list_lookup_fmap, Hp). pose proof (layout_lt _ _ _ _ E Hk). split; [lia|]. split; [lia|done].
  - assert ((sz <$> sl) !! p = Some (sz c)) as E by (by rewrite list_lookup_fmap, Hp). pose proof (layout_lt _ _ _ _ E Hk). split; [lia|]. split; [done|lia].
Qed.
Lemma Base_disjoint dl sl s c c' b b' k k' : RInv dl sl s -> Base dl sl c b -> Base dl sl c' b' -> k < sz c -> k' < sz c' ->
  b + k = b' + k' -> c = c'.
Proof.
  intros I HB HB' Hk Hk' E. destruct (Base_bound _ _ _ _ _ _ I HB Hk) as (_ & D1 & S1). destruct (Base_bound _ _ _ _ _ _ I HB' Hk') as (_ & D2 & S2).
  destruct HB as [[Hd (p & Hp & ->)]|[Hd (p & Hp & ->)]], HB' as [[Hd' (p' & Hp' & ->)]|[Hd' (p' & Hp' & ->)]].
  - destruct (layout_inj (sz <$> dl) p p' k k' (sz c) (sz c')) as [<- _]; [by rewrite list_lookup_fmap, Hp|by rewrite list_lookup_fmap, Hp'|done|done|done|congruence].
  - specialize (D1 Hd). specialize (S2 Hd'). lia.
  - specialize (D2 Hd'). specialize (S1 Hd). lia.
  - destruct (layout_inj (sz <$> sl) p p' k k' (sz c) (sz c')) as [<- _]; [by rewrite list_lookup_fmap, Hp|by rewrite list_lookup_fmap, Hp'|done|done|lia|congruence].
Qed.
Lemma Base_fun dl sl s c b b' : RInv dl sl s -> Base dl sl c b -> Base dl sl c b' -> b = b'.
Proof.
  intros I [[Hd (p & Hp & ->)]|[Hd (p & Hp & ->)]] [[Hd' (p' & Hp' & ->)]|[Hd' (p' & Hp' & ->)]]; try congruence.
  - by rewrite (NoDup_lookup dl p p' c (ri_nd _ _ _ I) Hp Hp').
  - by rewrite (NoDup_lookup sl p p' c (ri_ns _ _ _ I) Hp Hp').
Qed.
Lemma Base_snoc_d dl sl c b x : Base dl sl c b -> Base (dl ++ [x]) sl c b.
Proof.
  intros [[Hd (p & Hp & ->)]|H]; [|by right]. left. split; [done|]. exists p. apply lookup_lt_Some in Hp as Hlt.
  split; [by apply lookup_app_l_Some|]. rewrite fmap_app, take_app_le; [done|]. rewrite fmap_length. lia.
Qed.
Lemma Base_snoc_s dl sl c b x : Base dl sl c b -> Base dl (sl ++ [x]) c b.
Proof.
  intros [H|[Hd (p & Hp & ->)]]; [by left|]. right. split; [done|]. exists p. apply lookup_lt_Some in Hp as Hlt.
  split; [by apply lookup_app_l_Some|]. rewrite fmap_app, take_app_le; [done|]. rewrite fmap_length. lia.
Qed.

Definition rpot1 (c : nat) (pc : rpc) : nat :=
  match pc with R0 => 2 * sz c + 1 | R1 j _ => 2 * (start (S c) - j) | R2 j _ => 2 * (start (S c) - j) - 1 | RDone => 0 end.
Definition rpot (s : rstate) : nat := sum_list (imap rpot1 (r_thr s)).
Lemma imap_sum_insert (l : list rpc) (f : nat -> rpc -> nat) : forall t p q, l !! t = Some p ->
  sum_list (imap f (<[t:=q]> l)) + f t p = sum_list (imap f l) + f t q.
Proof.
  revert f. induction l as [|a l IH]; intros f [|t] p q H; simpl in *; try done.
  - injection H as ->. lia.
  - specialize (IH (f ∘ S) t p q H). simpl in IH. unfold compose in *. lia.
Qed.

Lemma rloop_pc s dl sl c b k : c < N -> Base dl sl c b -> k <= sz c -> Written (r_idx s) idx c b k -> Written (r_perm s) pm c b k ->
  RPc s dl sl c (rloop offs c (start c + k) (b + k)) /\ rpot1 c (rloop offs c (start c + k) (b + k)) <= 2 * (sz c - k).
Proof.
  intros Hc HB Hk H1 H2. destruct (cell_bound c Hc) as [_ E]. unfold rloop. rewrite E.
  destruct (Nat.ltb_spec (start c + k) (start c + sz c)).
  - simpl. rewrite E. split; [|lia]. exists b, k. split; [done|]. split; [lia|]. done.
  - simpl. split; [|lia]. assert (k = sz c) as -> by lia. by exists b.
Qed.

(** Other cells keep their written prefixes. *)
Lemma Written_other arr src c b k off v : (forall t, t < k -> b + t <> off) -> Written arr src c b k -> Written (<[off := v]> arr) src c b k.
Proof.
  intros Hne HW t Ht. destruct (HW t Ht) as (x & H1 & H2). exists x. split; [done|]. rewrite list_lookup_insert_ne; [done|].
  specialize (Hne t Ht). lia.
Qed.
Lemma RPc_other s dl sl c c' pc b k v (wi : bool) : RInv dl sl s -> Base dl sl c b -> k < sz c -> c' <> c -> RPc s dl sl c' pc ->
  RPc (if wi then RState (r_dense s) (r_sparse s) (<[b + k := v]> (r_idx s)) (r_perm s) (r_thr s)
       else RState (r_dense s) (r_sparse s) (r_idx s) (<[b + k := v]> (r_perm s)) (r_thr s)) dl sl c' pc.
Proof.
  intros I HB Hk Hne HP.
  assert (forall b' m arr src, Base dl sl c' b' -> m <= sz c' -> Written arr src c' b' m -> Written (<[b + k := v]> arr) src c' b' m) as HW.
  { intros b' m arr src HB' Hm H. apply Written_other; [|done]. intros t Ht E. apply Hne. symmetry.
    eapply (Base_disjoint dl sl s c c' b b' k t); eauto; lia. }
  destruct pc as [|j off|j off|]; simpl in HP |- *; [done| | |].
  - destruct HP as (b' & k' & H1 & H2 & H3 & H4 & H5 & H6). exists b', k'. split; [done|]. split; [done|]. split; [done|]. split; [done|].
    destruct wi; simpl; (split; [|]); auto; apply HW; auto; lia.
  - destruct HP as (b' & k' & H1 & H2 & H3 & H4 & H5 & H6). exists b', k'. split; [done|]. split; [done|]. split; [done|]. split; [done|].
    destruct wi; simpl; (split; [|]); auto; apply HW; auto; lia.
  - destruct HP as (b' & H1 & H5 & H6). exists b'. split; [done|].
    destruct wi; simpl; (split; [|]); auto; apply HW; auto; lia.
Qed.

Lemma Written_snoc arr src c b k v : b + k < length arr -> src !! (start c + k) = Some v -> Written arr src c b k -> Written (<[b + k := Some v]> arr) src c b (S k).
Proof.
  intros Hl Hv HW t Ht. destruct (decide (t = k)) as [->|Hne].
  - exists v. split; [done|]. by rewrite list_lookup_insert.
  - destruct (HW t ltac:(lia)) as (x & H1 & H2). exists x. split; [done|]. rewrite list_lookup_insert_ne by lia. done.
Qed.

Lemma rstep_inv dl sl s c s' : RInv dl sl s -> rstep offs idx pm minpts s c = Some s' ->
  (exists dl' sl', RInv dl' sl' s') /\ rpot s' < rpot s.
Proof.
  intros I. unfold rstep. destruct (r_thr s !! c) as [pc|] eqn:Hc; simpl; [|done].
  assert (c < N) as HcN by (rewrite <- (ri_t _ _ _ I); by eapply lookup_lt_Some).
  pose proof (ri_pc _ _ _ I _ _ Hc) as HP. pose proof (cell_bound c HcN) as [Hcb Hcs].
  destruct pc as [|j off|j off|]; simpl in HP.
  - rewrite (offs_at c) by lia. simpl. rewrite (offs_at (S c)) by lia. simpl.
    assert (default 0 (offs !! S c) - default 0 (offs !! c) = sz c) as Esz by done.
    destruct HP as [Hn1 Hn2].
    destruct (dense c) eqn:Ed; intros [= <-].
    + assert (Base (dl ++ [c]) sl c (r_dense s)) as HB.
      { left. split; [done|]. exists (length dl). split; [by rewrite list_lookup_middle|]. rewrite (ri_d _ _ _ I), fmap_app, take_app_alt; [done|].
        by rewrite fmap_length. }
      destruct (rloop_pc (RState (r_dense s + (start (S c) - start c)) (r_sparse s) (r_idx s) (r_perm s) (<[c:=rloop offs c (start c) (r_dense s)]> (r_thr s)))
         (dl ++ [c]) sl c (r_dense s) 0 HcN HB ltac:(lia)) as [HPc Hpot]; [intros t Ht; lia|intros t Ht; lia|].
      rewrite !Nat.add_0_r in HPc, Hpot. split.
      * exists (dl ++ [c]), sl. constructor; simpl; try apply I.
        -- apply NoDup_app. split; [apply I|]. split; [|apply NoDup_singleton]. intros x Hx Hx'. apply elem_of_list_singleton in Hx' as ->. done.
        -- intros x Hx. apply elem_of_app in Hx as [Hx|Hx]; [by apply (ri_dl _ _ _ I)|]. apply elem_of_list_singleton in Hx as ->. done.
        -- rewrite fmap_app, sum_list_with_app. simpl. rewrite (ri_d _ _ _ I). lia.
        -- rewrite insert_length. apply I.
        -- intros x pc Hx. apply upd_cases in Hx as [(-> & -> & _)|[Hne Hx]]; [done|]. pose proof (ri_pc _ _ _ I _ _ Hx) as H.
           destruct pc as [|j off|j off|]; simpl in H |- *.
           ++ destruct H. split; [|done]. rewrite elem_of_app, elem_of_list_singleton. tauto.
           ++ destruct H as (b & k & HB' & H). exists b, k. split; [by apply Base_snoc_d|done].
           ++ destruct H as (b & k & HB' & H). exists b, k. split; [by apply Base_snoc_d|done].
           ++ destruct H as (b & HB' & H). exists b. split; [by apply Base_snoc_d|done].
      * unfold rpot. simpl. pose proof (imap_sum_insert (r_thr s) rpot1 c R0 (rloop offs c (start c) (r_dense s)) Hc) as H. simpl in H. lia.
    + assert (Base dl (sl ++ [c]) c (r_sparse s)) as HB.
      { right. split; [done|]. exists (length sl). split; [by rewrite list_lookup_middle|]. rewrite (ri_s _ _ _ I), fmap_app, take_app_alt; [done|].
        by rewrite fmap_length. }
      destruct (rloop_pc (RState (r_dense s) (r_sparse s + (start (S c) - start c)) (r_idx s) (r_perm s) (<[c:=rloop offs c (start c) (r_sparse s)]> (r_thr s)))
         dl (sl ++ [c]) c (r_sparse s) 0 HcN HB ltac:(lia)) as [HPc Hpot]; [intros t Ht; lia|intros t Ht; lia|].
      rewrite !Nat.add_0_r in HPc, Hpot. split.
      * exists dl, (sl ++ [c]). constructor; simpl; try apply I.
        -- apply NoDup_app. split; [apply I|]. split; [|apply NoDup_singleton]. intros x Hx Hx'. apply elem_of_list_singleton in Hx' as ->. done.
        -- intros x Hx. apply elem_of_app in Hx as [Hx|Hx]; [by apply (ri_sl _ _ _ I)|]. apply elem_of_list_singleton in Hx as ->. done.
        -- rewrite fmap_app, sum_list_with_app. simpl. rewrite (ri_s _ _ _ I). lia.
        -- rewrite insert_length. apply I.
        -- intros x pc Hx. apply upd_cases in Hx as [(-> & -> & _)|[Hne Hx]]; [done|]. pose proof (ri_pc _ _ _ I _ _ Hx) as H.
           destruct pc as [|j off|j off|]; simpl in H |- *.
           ++ destruct H. split; [done|]. rewrite elem_of_app, elem_of_list_singleton. tauto.
           ++ destruct H as (b & k & HB' & H). exists b, k. split; [by apply Base_snoc_s|done].
           ++ destruct H as (b & k & HB' & H). exists b, k. split; [by apply Base_snoc_s|done].
           ++ destruct H as (b & HB' & H). exists b. split; [by apply Base_snoc_s|done].
      * unfold rpot. simpl. pose proof (imap_sum_insert (r_thr s) rpot1 c R0 (rloop offs c (start c) (r_sparse s)) Hc) as H. simpl in H. lia.
  - destruct HP as (b & k & HB & Hk & -> & -> & H1 & H2).
    destruct (Base_bound _ _ _ _ _ _ I HB Hk) as (Hbn & _).
    destruct (lookup_lt_is_Some_2 idx (start c + k)) as [x Hx]; [lia|]. rewrite Hx. simpl.
    rewrite wr_Some by (rewrite (ri_i _ _ _ I); done). simpl. intros [= <-]. split.
    + exists dl, sl. constructor; simpl; try apply I.
      * rewrite insert_length. apply I.
      * rewrite insert_length. apply I.
      * intros c' pc Hc'. apply upd_cases in Hc' as [(-> & -> & _)|[Hne Hc']].
        -- simpl. exists b, k. split; [done|]. split; [done|]. split; [done|]. split; [done|]. split; [|done].
           apply Written_snoc; auto. rewrite (ri_i _ _ _ I). done.
        -- pose proof (RPc_other s dl sl c c' pc b k (Some x) true I HB Hk Hne (ri_pc _ _ _ I _ _ Hc')) as H. by destruct pc.
    + unfold rpot. simpl. pose proof (imap_sum_insert (r_thr s) rpot1 c _ (R2 (start c + k) (b + k)) Hc) as H. simpl in H. lia.
  - destruct HP as (b & k & HB & Hk & -> & -> & H1 & H2).
    destruct (Base_bound _ _ _ _ _ _ I HB Hk) as (Hbn & _).
    destruct (lookup_lt_is_Some_2 pm (start c + k)) as [x Hx]; [lia|]. rewrite Hx. simpl.
    rewrite wr_Some by (rewrite (ri_p _ _ _ I); done). simpl. intros [= <-].
    assert (Written (<[b + k := Some x]> (r_perm s)) pm c b (S k)) as H2' by (apply Written_snoc; auto; rewrite (ri_p _ _ _ I); done).
    destruct (rloop_pc (RState (r_dense s) (r_sparse s) (r_idx s) (<[b + k := Some x]> (r_perm s)) (<[c := rloop offs c (S (start c + k)) (S (b + k))]> (r_thr s)))
        dl sl c b (S k) HcN HB Hk H1 H2') as [HPc Hpot].
    rewrite !Nat.add_succ_r in HPc, Hpot. split.
    + exists dl, sl. constructor; simpl; try apply I.
      * rewrite insert_length. apply I.
      * rewrite insert_length. apply I.
      * intros c' pc Hc'. apply upd_cases in Hc' as [(-> & -> & _)|[Hne Hc']]; [done|].
        pose proof (RPc_other s dl sl c c' pc b k (Some x) false I HB Hk Hne (ri_pc _ _ _ I _ _ Hc')) as H. by destruct pc.
    + unfold rpot. simpl. pose proof (imap_sum_insert (r_thr s) rpot1 c _ (rloop offs c (S (start c + k)) (S (b + k))) Hc) as H. simpl in H. lia.
  - done.
Qed.

Lemma rstep_progress dl sl s c : RInv dl sl s -> rlive s c -> is_Some (rstep offs idx pm minpts s c).
Proof.
  intros I (pc & Hc & Hne). unfold rstep. rewrite Hc. simpl.
  assert (c < N) as HcN by (rewrite <- (ri_t _ _ _ I); by eapply lookup_lt_Some).
  pose proof (ri_pc _ _ _ I _ _ Hc) as HP. pose proof (cell_bound c HcN) as [Hcb Hcs].
  destruct pc as [|j off|j off|]; simpl in HP; [| | |done].
  - rewrite (offs_at c) by lia. simpl. rewrite (offs_at (S c)) by lia. simpl. eauto.
  - destruct HP as (b & k & HB & Hk & -> & -> & H1 & H2). destruct (Base_bound _ _ _ _ _ _ I HB Hk) as (Hbn & _).
    destruct (lookup_lt_is_Some_2 idx (start c + k)) as [x Hx]; [lia|]. rewrite Hx. simpl.
    rewrite wr_Some by (rewrite (ri_i _ _ _ I); done). simpl. eauto.
  - destruct HP as (b & k & HB & Hk & -> & -> & H1 & H2). destruct (Base_bound _ _ _ _ _ _ I HB Hk) as (Hbn & _).
    destruct (lookup_lt_is_Some_2 pm (start c + k)) as [x Hx]; [lia|]. rewrite Hx. simpl.
    rewrite wr_Some by (rewrite (ri_p _ _ _ I); done). simpl. eauto.
Qed.

Lemma rinit_inv : RInv [] [] (rinit offs idx pm minpts).
Proof.
  constructor; simpl; rewrite ?replicate_length; try done; try apply NoDup_nil_2.
  - intros c Hc. by apply elem_of_nil in Hc.
  - intros c Hc. by apply elem_of_nil in Hc.
  - intros c pc Hc. apply lookup_replicate in Hc as [-> _]. simpl. split; apply not_elem_of_nil.
Qed.

Lemma rdone dl sl s : RInv dl sl s -> (forall c, ~ rlive s c) ->
  dl ≡ₚ List.filter dense (seq 0 N) /\ sl ≡ₚ List.filter (fun c => negb (dense c)) (seq 0 N) /\
  r_idx s = map Some (concat (map (segment offs idx) (dl ++ sl))) /\ r_perm s = map Some (concat (map (segment offs pm) (dl ++ sl))).
Proof.
  intros I HD.
  assert (forall c, c < N -> exists b, Base dl sl c b /\ Written (r_idx s) idx c b (sz c) /\ Written (r_perm s) pm c b (sz c)) as HA.
  { intros c Hc. destruct (lookup_lt_is_Some_2 (r_thr s) c) as [pc Hpc]; [by rewrite (ri_t _ _ _ I)|].
    assert (pc = RDone) as ->; [|exact (ri_pc _ _ _ I _ _ Hpc)].
    destruct pc; try done; exfalso; apply (HD c); eexists; (split; [exact Hpc|done]). }
  assert (forall c, c ∈ dl <-> c < N /\ dense c = true) as HDl.
  { intros c. split; [apply I|]. intros [Hc Hd]. destruct (HA c Hc) as (b & [[_ (p & Hp & _)]|[? _]] & _); [by eapply elem_of_list_lookup_2|congruence]. }
  assert (forall c, c ∈ sl <-> c < N /\ dense c = false) as HSl.
  { intros c. split; [apply I|]. intros [Hc Hd]. destruct (HA c Hc) as (b & [[? _]|[_ (p & Hp & _)]] & _); [congruence|by eapply elem_of_list_lookup_2]. }
  assert (dl ≡ₚ List.filter dense (seq 0 N)) as P1.
  { apply NoDup_Permutation; [apply I|apply NoDup_ListNoDup, List.NoDup_filter, NoDup_ListNoDup, NoDup_seq|].
    intros c. rewrite HDl, elem_filter, elem_of_seq. split; intros [? ?]; split; auto; lia. }
  assert (sl ≡ₚ List.filter (fun c => negb (dense c)) (seq 0 N)) as P2.
  { apply NoDup_Permutation; [apply I|apply NoDup_ListNoDup, List.NoDup_filter, NoDup_ListNoDup, NoDup_seq|].
    intros c. rewrite HSl, elem_filter, elem_of_seq. destruct (dense c); split; intros [? ?]; split; auto; try lia; done. }
  split; [done|]. split; [done|].
  assert (sum_list (sz <$> dl) = nd) as Ed by (by apply sum_fmap_perm).
  assert (sum_list (sz <$> sl) + nd = n) as Es by (rewrite (sum_fmap_perm _ _ _ P2), Nat.add_comm; apply split_sum).
  assert (forall src : list nat, length src = n -> (length <$> map (segment offs src) (dl ++ sl)) = (sz <$> dl) ++ (sz <$> sl)) as HLen.
  { intros src Hs. rewrite <- fmap_app. change (map (segment offs src) (dl ++ sl)) with (segment offs src <$> (dl ++ sl)). rewrite <- list_fmap_compose.
    apply list_fmap_ext. intros i c Hc. apply cell_len; [done|]. apply elem_of_list_lookup_2, elem_of_app in Hc as [Hc|Hc]; [by apply HDl|by apply HSl]. }
  assert (forall arr src, length arr = n -> length src = n -> (forall c b, c < N -> Base dl sl c b -> Written arr src c b (sz c)) ->
     arr = map Some (concat (map (segment offs src) (dl ++ sl)))) as HF.
  { intros arr src Ha Hs HW. apply array_concat.
    - rewrite HLen by done. rewrite sum_list_with_app. unfold id in *. rewrite Ha. change (sum_list_with (λ x, x)) with sum_list in *. lia.
    - intros q l p v Hq Hv. change (map (segment offs src) (dl ++ sl)) with (segment offs src <$> (dl ++ sl)) in *.
      apply list_lookup_fmap_Some in Hq as (c & Hq & ->). rewrite HLen by done.
      assert (c < N) as HcN by (apply elem_of_list_lookup_2, elem_of_app in Hq as [Hc|Hc]; [by apply HDl|by apply HSl]).
      assert (p < sz c) as Hp by (rewrite <- (cell_len src c Hs HcN); by eapply lookup_lt_Some).
      assert (src !! (start c + p) = Some v) as Hsrc.
      { unfold segment in Hv. rewrite lookup_take in Hv by done. by rewrite lookup_drop in Hv. }
      assert (Base dl sl c (sum_list (take q ((sz <$> dl) ++ (sz <$> sl))))) as HB.
      { apply lookup_app_Some in Hq as [Hq|[Hge Hq]].
        - left. split; [apply HDl; by eapply elem_of_list_lookup_2|]. exists q. split; [done|]. apply lookup_lt_Some in Hq.
          rewrite take_app_le by (rewrite fmap_length; lia). done.
        - right. split; [apply HSl; by eapply elem_of_list_lookup_2|]. exists (q - length dl). split; [done|].
          replace q with (length (sz <$> dl) + (q - length dl)) at 1 by (rewrite fmap_length; lia).
          rewrite take_add_app by done. rewrite sum_list_with_app. unfold id in *. change (sum_list_with (λ x, x)) with sum_list in *. by rewrite Ed. }
      destruct (HW c _ HcN HB p Hp) as (v' & Hv' & Harr). rewrite Hv' in Hsrc. injection Hsrc as ->. done. }
  split; apply HF; try apply I; auto; intros c b Hc HB; destruct (HA c Hc) as (b' & HB' & W1 & W2);
    (assert (b' = b) as <- by (eapply (Base_fun dl sl s); eauto); done).
Qed.
End Reorder.
