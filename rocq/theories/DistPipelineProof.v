(** Proofs about the distributed DBSCAN: from the local clusterings to the final labels. *)
From Verif Require Export DistDbscanProof.
Local Open Scope nat_scope.

Lemma mapM_all {A B} (h : A -> option B) (f : A -> B) l : (forall x, h x = Some (f x)) -> mapM h l = Some (f <$> l).
Proof. intros H. apply mapM_Some. induction l; csimpl; constructor; auto. Qed.

Section pipeline.
Context (minpts : nat) (near : nat * nat -> nat * nat -> bool) (ranks : list rank_data).
Local Notation ns := (rd_n <$> ranks).
Local Notation DCore := (DCore ns minpts near).
Local Notation DConn := (DConn ns minpts near).
Local Notation Lz := (Lz ns minpts near).
Local Notation Lab := (Lab ns minpts near).
Local Notation gid := (gid ns).
Context (srt : list (nat * Z) -> list (nat * Z)).
Local Notation is_core := (merge_core ns minpts near (rd_ghosts <$> ranks)).

Definition offs : list Z := offsets_from 0 (Z.of_nat <$> ns).
(** the global label that rank [r] computes for the [j]-th of its points and ghosts *)
Definition G (r j : nat) (z : Z) : Prop := exists d z0, ranks !! r = Some d /\ rd_labels d !! j = Some z0 /\
  convert_label offs r (rd_n d) (rd_ghosts d) z0 = Some z.
Lemma G_fun r j z z' : G r j z -> G r j z' -> z = z'.
Proof. intros (d & z0 & E1 & E2 & E3) (d' & z0' & E1' & E2' & E3'). congruence. Qed.
(** the labels that the owner of a point gets back *)
Definition Rec (r id : nat) (l : Z) : Prop := exists s d k, ranks !! s = Some d /\ rd_ghosts d !! k = Some (r, id) /\ G s (rd_n d + k) l /\ l <> (-1)%Z.

Context (Hmin : 2 <= minpts).
Context (Hrefl : forall p, near p p = true) (Hsym : forall p q, near p q = near q p).
Context (Hsp : forall l, srt l ≡ₚ l) (Hss : forall l i j x y, i <= j -> srt l !! i = Some x -> srt l !! j = Some y -> fst x <= fst y).
Context (HR : forall r d, ranks !! r = Some d -> EnoughGhosts ns minpts near r (rd_n d) (rd_ghosts d) /\
                                                 LocalDBSCAN minpts near r (rd_n d) (rd_ghosts d) (rd_labels d)).

Lemma rank_n r d : ranks !! r = Some d -> ns !! r = Some (rd_n d).
Proof. intros E. by rewrite list_lookup_fmap, E. Qed.
Lemma G_own r d j p : ranks !! r = Some d -> unified r (rd_n d) (rd_ghosts d) !! j = Some p ->
  exists z, G r j z /\ (z = (-1)%Z /\ rd_labels d !! j = Some (-1)%Z \/
    rd_labels d !! j <> Some (-1)%Z /\ exists c m, gid c = z /\ Lab p c /\ unified r (rd_n d) (rd_ghosts d) !! m = Some c /\ G r m z).
Proof.
  intros Er Ej. destruct (HR r d Er) as [HG HL]. pose proof (rank_n r d Er) as Hn.
  destruct (local_label ns minpts near Hmin Hrefl Hsym r _ _ _ Hn HG HL j p Ej) as (z0 & Ez & [->|(m & c & -> & Em & Elm & HLab)]).
  - exists (-1)%Z. split; [|by left]. exists d, (-1)%Z. done.
  - pose proof (convert_ok ns minpts near Hmin Hrefl Hsym r _ _ Hn HG m c Em) as Hc. exists (gid c). split; [exists d, (Z.of_nat m); done|]. right.
    split; [rewrite Ez; intros [=]; lia|]. exists c, m. split; [done|]. split; [done|]. split; [done|]. exists d, (Z.of_nat m). done.
Qed.
Lemma rank_len r d : ranks !! r = Some d -> length (rd_labels d) = rd_n d + length (rd_ghosts d).
Proof. intros Er. destruct (HR r d Er) as [_ HL]. rewrite (vd_len _ _ _ _ HL). apply u_len. Qed.

Lemma step3_ok r d : ranks !! r = Some d -> exists x, step3 offs r d = Some x /\ length (fst x) = rd_n d /\
  (forall i z, fst x !! i = Some z <-> i < rd_n d /\ G r i z) /\
  (forall o id l, (o, id, l) ∈ snd x <-> exists k, rd_ghosts d !! k = Some (o, id) /\ G r (rd_n d + k) l).
Proof.
  intros Er. pose proof (rank_len r d Er) as Hlen.
  assert (is_Some (convertLocalToGlobal offs r (rd_n d) (rd_ghosts d) (rd_labels d))) as [ls Hls].
  { apply mapM_is_Some, Forall_lookup. intros j z Ej. pose proof (lookup_lt_Some _ _ _ Ej) as Hj.
    destruct (lookup_lt_is_Some_2 (unified r (rd_n d) (rd_ghosts d)) j) as [p Ep]; [rewrite u_len; lia|].
    destruct (G_own r d j p Er Ep) as (z' & (d' & z0 & E1 & E2 & E3) & _). assert (d' = d) as -> by congruence. assert (z0 = z) as -> by congruence.
    change (is_Some (convert_label offs r (rd_n d) (rd_ghosts d) z)). eauto. }
  assert (forall j z, ls !! j = Some z <-> G r j z) as HG.
  { intros j z. apply mapM_Some in Hls. split.
    - intros E. destruct (Forall2_lookup_r _ _ _ _ _ Hls E) as (z0 & E0 & Ec). exists d, z0. done.
    - intros (d' & z0 & E1 & E2 & E3). assert (d' = d) as -> by congruence. destruct (Forall2_lookup_l _ _ _ _ _ Hls E2) as (z' & E' & Ec). congruence. }
  assert (length ls = length (rd_labels d)) as Hll by (apply mapM_Some in Hls; symmetry; by eapply Forall2_length).
  exists (take (rd_n d) ls, zip (rd_ghosts d) (drop (rd_n d) ls)). unfold step3. rewrite Hls. cbn [mbind option_bind fst snd].
  split; [done|]. split; [rewrite take_length; lia|]. split.
  - intros i z. rewrite <- HG. split.
    + intros E. assert (i < rd_n d) as Hi by (apply lookup_lt_Some in E; rewrite take_length in E; lia). by rewrite lookup_take in E.
    + intros [Hi E]. by rewrite lookup_take.
  - intros o id l. rewrite elem_of_list_lookup. split.
    + intros [k E]. apply lookup_zip_with_Some in E as (g & z & Eg & E1 & E2). injection Eg as <- <-. exists k. split; [done|].
      apply HG. by rewrite lookup_drop in E2.
    + intros (k & E1 & E2). exists k. apply lookup_zip_with_Some. exists (o, id), l. split; [done|]. split; [done|]. rewrite lookup_drop. by apply HG.
Qed.

Lemma Rec_Lz r id l : Rec r id l -> Lz (r, id) l /\ exists n, ns !! r = Some n /\ id < n.
Proof.
  intros (s & d & k & Es & Ek & HG & Hl). destruct (HR s d Es) as [HE _].
  destruct (G_own s d (rd_n d + k) (r, id) Es) as (z & HGz & H); [by rewrite (u_ghost minpts Hmin)|]. rewrite (G_fun _ _ _ _ HG HGz) in *.
  destruct H as [[-> _]|(_ & c & m & H1 & H2 & _)]; [done|]. split; [by exists c|].
  assert ((r, id) ∈ rd_ghosts d) as Hin by (by eapply elem_of_list_lookup_2). by apply HE in Hin as [Hin _].
Qed.

Lemma until_pairs_ok : exists s5, until_pairs srt is_core ranks = Some s5 /\ length s5 = length ranks /\
  forall r x, s5 !! r = Some x -> exists d g, ranks !! r = Some d /\ length (fst x) = rd_n d /\
    (forall id l, l ∈ g id <-> Rec r id l) /\
    (forall i l, i < rd_n d -> G r i l -> fst x !! i = Some (default l (fst (merge_point (is_core r i) l (g i))))) /\
    (forall p, p ∈ snd x <-> exists i l, i < rd_n d /\ G r i l /\ p ∈ snd (merge_point (is_core r i) l (g i))).
Proof.
  unfold until_pairs. unfold counts_and_offsets. cbn [snd].
  assert ((fun d => Z.of_nat (rd_n d)) <$> ranks = Z.of_nat <$> ns) as -> by (by rewrite <- list_fmap_compose). fold offs. cbn zeta.
  destruct (mapM_seq (fun r => d ← ranks !! r; step3 offs r d)
    (fun r x => exists d, ranks !! r = Some d /\ length (fst x) = rd_n d /\
      (forall i z, fst x !! i = Some z <-> i < rd_n d /\ G r i z) /\
      (forall o id l, (o, id, l) ∈ snd x <-> exists k, rd_ghosts d !! k = Some (o, id) /\ G r (rd_n d + k) l)) (length ranks)) as (s3 & -> & Hlen & Hs3).
  { intros r Hr. destruct (lookup_lt_is_Some_2 _ _ Hr) as [d Ed]. destruct (step3_ok r d Ed) as (x & Hx & H). exists x.
    rewrite Ed. cbn [mbind option_bind]. split; [done|]. exists d. split; [done|]. exact H. }
  cbn [mbind option_bind].
  set (sent := (fun x : list Z * list (nat * nat * Z) => compress (snd x)) <$> s3).
  assert (forall r id l, (id, l) ∈ received r sent <-> Rec r id l) as Hrec.
  { intros r id l. unfold received. rewrite elem_of_concat. split.
    - intros (m & Hm & Hin). apply elem_of_list_fmap in Hm as (gs & -> & Hgs). unfold sent in Hgs. apply elem_of_list_fmap in Hgs as (x & -> & Hx).
      apply elem_of_list_lookup in Hx as [s Es]. destruct (Hs3 s x Es) as (_ & d & Ed & _ & _ & H4).
      apply elem_of_list_fmap in Hin as ([[o id'] l'] & [= -> ->] & Hin). apply elem_of_list_In, filter_In in Hin as [Hin Ho]. apply Nat.eqb_eq in Ho. simpl in Ho. subst o.
      unfold compress in Hin. apply filter_In in Hin as [Hin Hne]. apply elem_of_list_In, H4 in Hin as (k & Hk & HG).
      exists s, d, k. split; [done|]. split; [done|]. split; [done|]. unfold g_label in Hne. simpl in Hne. destruct (Z.eqb_spec l' (-1)); done.
    - intros (s & d & k & Es & Ek & HG & Hne). destruct (lookup_lt_is_Some_2 s3 s) as [x Ex]; [rewrite Hlen; by eapply lookup_lt_Some|].
      destruct (Hs3 s x Ex) as (_ & d' & Ed & _ & _ & H4). assert (d' = d) as -> by congruence.
      eexists. split.
      + apply elem_of_list_fmap. exists (compress (snd x)). split; [done|]. unfold sent. apply elem_of_list_fmap. exists x. split; [done|]. by eapply elem_of_list_lookup_2.
      + apply elem_of_list_fmap. exists (r, id, l). split; [done|]. apply elem_of_list_In, filter_In. split; [|apply Nat.eqb_refl].
        unfold compress. apply filter_In. split; [apply elem_of_list_In, H4; by exists k|]. unfold g_label. simpl. destruct (Z.eqb_spec l (-1)); done. }
  destruct (mapM_seq (fun r => x ← s3 !! r; step5 srt (is_core r) (fst x) (received r sent))
    (fun r x => exists d g, ranks !! r = Some d /\ length (fst x) = rd_n d /\
    (forall id l, l ∈ g id <-> Rec r id l) /\
    (forall i l, i < rd_n d -> G r i l -> fst x !! i = Some (default l (fst (merge_point (is_core r i) l (g i))))) /\
    (forall p, p ∈ snd x <-> exists i l, i < rd_n d /\ G r i l /\ p ∈ snd (merge_point (is_core r i) l (g i)))) (length ranks)) as (s5 & -> & Hlen5 & Hs5).
  { intros r Hr. destruct (lookup_lt_is_Some_2 s3 r ltac:(lia)) as [x Ex]. destruct (Hs3 r x Ex) as (_ & d & Ed & Hl & Hown & _).
    destruct (step5_ok srt (is_core r) (fst x) (received r sent) Hsp Hss) as (st & g & H1 & H2 & H3 & H4 & H5).
    { intros id l Hin. apply Hrec, Rec_Lz in Hin as [_ (n & En & Hid)]. rewrite Hl. rewrite (rank_n r d Ed) in En. injection En as <-. done. }
    exists st. rewrite Ex. cbn [mbind option_bind]. split; [done|]. exists d, g. split; [done|]. split; [lia|].
    split; [intros id l; rewrite H3; apply Hrec|]. split.
    - intros i l Hi HG. apply H4, Hown. done.
    - intros p. rewrite H5. split.
      + intros (i & l & Hi & Hp). apply Hown in Hi as [Hi HG]. exists i, l. done.
      + intros (i & l & Hi & HG & Hp). exists i, l. split; [by apply Hown|done]. }
  exists s5. split; [done|]. split; [done|]. intros r x Hx. by apply Hs5.
Qed.

Lemma Lz_two p z : minpts = 2 -> point ns p -> Lz p z -> DCore p.
Proof.
  intros H2 Hp (c & _ & _ & q & Hq & Hn & _). destruct (decide (q = p)) as [->|Hne]; [done|]. split; [done|].
  assert ([p; q] ⊆+ List.filter (near p) (all_points ns)) as Hsub; [|apply submseteq_length in Hsub; simpl in Hsub; lia].
  apply NoDup_submseteq; [repeat constructor; [intros Hx; apply elem_of_list_singleton in Hx; done|apply not_elem_of_nil]|].
  intros x Hx. apply elem_of_list_In, filter_In. apply elem_of_cons in Hx as [->|Hx].
  - split; [by apply elem_of_list_In, all_points_iff|apply Hrefl].
  - apply elem_of_list_singleton in Hx as ->. split; [by apply elem_of_list_In, all_points_iff, (DCore_point ns minpts near)|done].
Qed.
Lemma is_core_ok r d i : ranks !! r = Some d -> i < rd_n d -> minpts <> 2 -> is_core r i = true <-> DCore (r, i).
Proof.
  intros Er Hi H2. destruct (HR r d Er) as [HE _]. pose proof (rank_n r d Er) as Hn.
  rewrite (core_own ns minpts near Hmin Hrefl Hsym r _ _ Hn HE i Hi), (core_count minpts near r (rd_n d) (rd_ghosts d) i (r, i)) by (by apply u_own).
  unfold merge_core. rewrite Hn, list_lookup_fmap, Er. simpl. destruct (Nat.eqb_spec minpts 2); [done|]. simpl. apply Nat.leb_le.
Qed.
Lemma is_core_g r d i z : ranks !! r = Some d -> i < rd_n d -> Lz (r, i) z -> is_core r i = true <-> DCore (r, i).
Proof.
  intros Er Hi Hz. destruct (decide (minpts = 2)) as [H2|H2]; [|by eapply is_core_ok].
  split; intros _; [apply (Lz_two _ z H2); [|done]; exists (rd_n d); split; [by apply rank_n|done]|]. unfold merge_core. by rewrite H2.
Qed.

Definition Noise (p : nat * nat) : Prop := forall q, DCore q -> near p q = false.
Lemma Noise_Lz p z : Noise p -> ~ Lz p z.
Proof. intros HN (c & _ & _ & q & Hq & Hn & _). rewrite (HN q Hq) in Hn. done. Qed.
Lemma Noise_core p : Noise p -> ~ DCore p.
Proof. intros HN Hp. specialize (HN p Hp). by rewrite Hrefl in HN. Qed.
(** the own label is -1 exactly for noise *)
Lemma own_G r d i : ranks !! r = Some d -> i < rd_n d -> exists l, G r i l /\ (l = (-1)%Z /\ Noise (r, i) \/ l <> (-1)%Z /\ Lz (r, i) l).
Proof.
  intros Er Hi. destruct (HR r d Er) as [HE HL]. destruct (G_own r d i (r, i) Er (u_own _ _ _ _ Hi)) as (z & HG & [[-> H]|(_ & c & m & H1 & H2 & _)]).
  - exists (-1)%Z. split; [done|]. left. split; [done|]. intros q Hq. destruct (near (r, i) q) eqn:En; [|done]. exfalso.
    apply (own_label ns minpts near Hmin Hrefl Hsym r _ _ _ (rank_n r d Er) HE HL i Hi); [by exists q|done].
  - exists z. split; [done|]. right. assert (Lz (r, i) z) as Hz by (by exists c). split; [by eapply Lz_nonneg|done].
Qed.

(** ** What the rank makes of a point *)
Section after.
Context (r : nat) (d : rank_data) (x : list Z * list (Z * Z)) (g : nat -> list Z).
Context (Er : ranks !! r = Some d) (Hg : forall id l, l ∈ g id <-> Rec r id l).
Context (Hlab : forall i l, i < rd_n d -> G r i l -> fst x !! i = Some (default l (fst (merge_point (is_core r i) l (g i))))).
Context (Hraw : forall p, p ∈ snd x <-> exists i l, i < rd_n d /\ G r i l /\ p ∈ snd (merge_point (is_core r i) l (g i))).
Lemma noise_g i : Noise (r, i) -> g i = [].
Proof.
  intros HN. destruct (g i) as [|l ls] eqn:E; [done|]. exfalso. assert (l ∈ g i) as Hin by (rewrite E; left).
  apply Hg, Rec_Lz in Hin as [Hz _]. by eapply Noise_Lz.
Qed.
Lemma after_label i l : i < rd_n d -> G r i l -> exists l1, fst x !! i = Some l1 /\
  (l = (-1)%Z /\ l1 = (-1)%Z /\ Noise (r, i) \/ Lz (r, i) l /\ Lz (r, i) l1 /\ (l1 = l \/ (l, l1) ∈ snd x)).
Proof.
  intros Hi HG. destruct (own_G r d i Er Hi) as (l' & HG' & H). rewrite (G_fun _ _ _ _ HG HG') in *. clear HG l. rename l' into l.
  eexists. split; [by apply Hlab|]. destruct H as [[-> HN]|[Hl Hz]].
  - left. rewrite (noise_g i HN), merge_point_none. done.
  - right. split; [done|]. destruct (g i) as [|g0 gs] eqn:Eg; [rewrite merge_point_none; simpl; split; [done|by left]|].
    destruct (is_core r i) eqn:Ec.
    + destruct (merge_point_core l (g0 :: gs) Hl ltac:(done)) as (mn & H1 & H2 & H3 & -> & H5). split.
      * destruct H1 as [->|H1]; [done|]. rewrite <- Eg in H1. by apply Hg, Rec_Lz in H1 as [? _].
      * destruct (decide (mn = l)) as [->|Hne]; [by left|]. right. apply Hraw. exists i, l. split; [done|]. split; [done|]. rewrite Ec, Eg.
        apply H5. split; [done|]. split; [congruence|by left].
    + rewrite merge_point_border by done. simpl. split; [done|by left].
Qed.
Lemma after_raw f t : (f, t) ∈ snd x -> (t < f)%Z /\ exists p, DCore p /\ Lz p f /\ Lz p t.
Proof.
  clear Hlab. intros Hin. apply Hraw in Hin as (i & l & Hi & HG & Hin). destruct (own_G r d i Er Hi) as (l' & HG' & H). rewrite (G_fun _ _ _ _ HG HG') in *. clear HG l. rename l' into l.
  destruct H as [[-> HN]|[Hl Hz]]; [rewrite (noise_g i HN), merge_point_none in Hin; by apply elem_of_nil in Hin|].
  destruct (g i) as [|g0 gs] eqn:Eg; [rewrite merge_point_none in Hin; by apply elem_of_nil in Hin|].
  destruct (is_core r i) eqn:Ec; [|rewrite merge_point_border in Hin by done; by apply elem_of_nil in Hin].
  destruct (merge_point_core l (g0 :: gs) Hl ltac:(done)) as (mn & H1 & H2 & H3 & _ & H5). apply H5 in Hin as (-> & Hne & Hf).
  assert (forall y, y = l \/ y ∈ g0 :: gs -> Lz (r, i) y) as HLz.
  { intros y [->|Hy]; [done|]. rewrite <- Eg in Hy. by apply Hg, Rec_Lz in Hy as [? _]. }
  split; [destruct Hf as [->|Hf]; [lia|specialize (H3 _ Hf); lia]|]. exists (r, i). split; [|split; by apply HLz].
  by eapply is_core_g.
Qed.
Lemma after_merge (F : Z -> Z) i l y : (forall f t, (f, t) ∈ snd x -> F f = F t) -> i < rd_n d -> DCore (r, i) -> G r i l -> Rec r i y -> F y = F l.
Proof.
  clear Hlab. intros HF Hi HC HG HRy. destruct (own_G r d i Er Hi) as (l' & HG' & H). rewrite (G_fun _ _ _ _ HG HG') in *. clear HG l. rename l' into l.
  pose proof HRy as Hy. apply Hg in Hy. apply Rec_Lz in HRy as [Hz _].
  destruct H as [[-> HN]|[Hl Hzl]]; [by apply Noise_Lz in Hz|].
  assert (is_core r i = true) as Ec by (by eapply is_core_g).
  destruct (merge_point_core l (g i) Hl) as (mn & _ & _ & _ & _ & H5); [intros E; rewrite E in Hy; by apply elem_of_nil in Hy|].
  assert (forall a, a = l \/ a ∈ g i -> F a = F mn) as Ha.
  { intros a Ha. destruct (decide (a = mn)) as [->|Hne]; [done|]. apply HF, Hraw. exists i, l. split; [done|]. split; [done|]. rewrite Ec. by apply H5. }
  rewrite (Ha y), (Ha l) by auto. done.
Qed.
End after.

(** ** All ranks *)
Lemma Lz_conn p c c' : gid c = gid c' -> Lab p c -> point ns c' -> c = c'.
Proof. intros E [Hc _] Hc'. by eapply gid_inj; [eapply DCore_point| |]. Qed.
Lemma zconn_gid raw : (forall f t, (f, t) ∈ raw -> exists p, DCore p /\ Lz p f /\ Lz p t) ->
  forall a b, ZConn (Link raw) a b -> a = b \/ exists c c', gid c = a /\ gid c' = b /\ DCore c /\ DCore c' /\ DConn c c'.
Proof.
  intros Hraw a b HC. induction HC as [a b Hab|a|a b _ IH|a b z _ IH1 _ IH2].
  - destruct (Hraw a b Hab) as (p & Hp & (c & Hc & HL) & (c' & Hc' & HL')). right. exists c, c'. split; [done|]. split; [done|].
    split; [apply HL|]. split; [apply HL'|]. eapply dc_trans; [eapply dc_sym|]; eapply Lab_core; eauto.
  - by left.
  - destruct IH as [->|(c & c' & ? & ? & ? & ? & ?)]; [by left|]. right. exists c', c. do 4 (split; [done|]). by apply dc_sym.
  - destruct IH1 as [->|(c & c' & ? & ? & ? & ? & ?)]; [done|]. destruct IH2 as [<-|(e & e' & He & ? & Hde & ? & ?)]; [right; by exists c, c'|].
    assert (c' = e) as ->.
    { apply (gid_inj ns); [by eapply DCore_point|by eapply DCore_point|congruence]. }
    right. exists c, e'. do 4 (split; [done|]). by eapply dc_trans.
Qed.
Lemma Lz_zconn raw p a b : (forall f t, (f, t) ∈ raw -> exists p, DCore p /\ Lz p f /\ Lz p t) -> ZConn (Link raw) a b -> Lz p a -> Lz p b.
Proof.
  intros Hraw HC Hp. destruct (zconn_gid raw Hraw a b HC) as [->|(c & c' & Ec & Ec' & Hc & Hc' & HD)]; [done|].
  destruct Hp as (e & He & Hl). assert (e = c) as -> by (eapply Lz_conn; [|done|by eapply DCore_point]; congruence).
  exists c'. split; [done|]. destruct Hl as (_ & q & Hq & Hn & Hqc). split; [done|]. exists q. split; [done|]. split; [done|]. by eapply dc_trans.
Qed.
Lemma Lz_same p q z : DCore q -> Lz p z -> Lz q z -> exists c, DCore c /\ near p c = true /\ DConn c q.
Proof.
  intros Hq (c & Ec & Hc) (c' & Ec' & Hc'). assert (c = c') as <- by (eapply Lz_conn; [|done|eapply DCore_point; apply Hc']; congruence).
  destruct Hc as (_ & e & He & Hn & HD). exists e. split; [done|]. split; [done|]. eapply dc_trans; [exact HD|]. apply dc_sym. by apply Lab_core.
Qed.

Theorem distributed_ok : exists s5 pairs labels, until_pairs srt is_core ranks = Some s5 /\ filter_pairs (snd <$> s5) = Some pairs /\
  distributed_dbscan srt is_core ranks = Some labels /\ SoundDistributed ns minpts near labels /\
  ((forall f t, (f, t) ∈ concat (snd <$> s5) -> final pairs f = final pairs t) -> ValidDistributed ns minpts near labels) /\
  (OneTarget (concat (snd <$> s5)) -> forall f t, (f, t) ∈ concat (snd <$> s5) -> final pairs f = final pairs t).
Proof.
  destruct until_pairs_ok as (s5 & H5 & Hlen & Hs5). set (raw := concat (snd <$> s5)).
  assert (forall f t, (f, t) ∈ raw -> (t < f)%Z /\ exists p, DCore p /\ Lz p f /\ Lz p t) as Hraw.
  { intros f t Hin. unfold raw in Hin. apply elem_of_concat in Hin as (l & Hl & Hin). apply elem_of_list_fmap in Hl as (x & -> & Hx).
    apply elem_of_list_lookup in Hx as [r Hx]. destruct (Hs5 r x Hx) as (d & g & Er & _ & Hg & _ & Hrw). by apply (after_raw r d x g Er Hg Hrw). }
  assert (forall r x f t, s5 !! r = Some x -> (f, t) ∈ snd x -> (f, t) ∈ raw) as Hsub.
  { intros r x f t Hx Hin. apply elem_of_concat. exists (snd x). split; [|done]. apply elem_of_list_fmap. exists x. split; [done|]. by eapply elem_of_list_lookup_2. }
  assert (Down raw) as Hdown by (intros f t Hin; by apply Hraw).
  destruct (filter_pairs_ok (snd <$> s5) Hdown) as (pairs & Hp & Hsorted & Hpd & Hpc & Hone). fold raw in Hpc, Hone.
  assert (forall z, ZConn (Link raw) z (final pairs z)) as Hfin.
  { intros z. eapply zmap; [|by apply final_conn]. intros a b Hab. by apply Hpc. }
  assert (forall f t, (f, t) ∈ raw -> exists p, DCore p /\ Lz p f /\ Lz p t) as Hraw' by (intros f t Hin; by apply Hraw).
  assert (final pairs (-1)%Z = (-1)%Z) as Hm1.
  { destruct (zconn_gid raw Hraw' _ _ (Hfin (-1)%Z)) as [E|(c & c' & E & _)]; [done|]. pose proof (gid_nonneg ns c). lia. }
  set (labels := (fun x : list Z * list (Z * Z) => final pairs <$> fst x) <$> s5). exists s5, pairs, labels. split; [done|]. split; [done|].
  assert (distributed_dbscan srt is_core ranks = Some labels) as Hdd.
  { unfold distributed_dbscan. rewrite H5. cbn [mbind option_bind]. rewrite Hp. cbn [mbind option_bind].
    apply mapM_all. intros x. by apply relabel_ok. }
  split; [done|].
  assert (length <$> labels = ns) as Hshape.
  { apply list_eq. intros r. unfold labels. rewrite <- list_fmap_compose, !list_lookup_fmap. destruct (s5 !! r) as [x|] eqn:Ex.
    - destruct (Hs5 r x Ex) as (d & g & Er & Hl & _). rewrite Er. simpl. rewrite fmap_length, Hl. done.
    - apply lookup_ge_None in Ex. rewrite (lookup_ge_None_2 ranks r) by lia. done. }
  (* the final label of a point *)
  assert (forall r i, point ns (r, i) -> exists d x g l l1, ranks !! r = Some d /\ s5 !! r = Some x /\ (forall id l, l ∈ g id <-> Rec r id l) /\
    (forall p, p ∈ snd x <-> exists i l, i < rd_n d /\ G r i l /\ p ∈ snd (merge_point (is_core r i) l (g i))) /\ i < rd_n d /\ G r i l /\
    label_of labels (r, i) = Some (final pairs l1) /\
    (l = (-1)%Z /\ l1 = (-1)%Z /\ Noise (r, i) \/ Lz (r, i) l /\ Lz (r, i) l1 /\ (l1 = l \/ (l, l1) ∈ snd x))) as Hpt.
  { intros r i (n & En & Hi). simpl in *. rewrite list_lookup_fmap in En. destruct (ranks !! r) as [d|] eqn:Er; [|done]. injection En as <-.
    destruct (lookup_lt_is_Some_2 s5 r) as [x Ex]; [rewrite Hlen; by eapply lookup_lt_Some|].
    destruct (Hs5 r x Ex) as (d' & g & Er' & Hl & Hg & Hlb & Hrw). assert (d' = d) as -> by congruence.
    destruct (own_G r d i Er Hi) as (l & HG & _). destruct (after_label r d x g Er Hg Hlb Hrw i l Hi HG) as (l1 & Hl1 & Hc).
    exists d, x, g, l, l1. do 6 (split; [done|]). split; [|done]. unfold label_of, labels. cbn [fst snd]. rewrite list_lookup_fmap, Ex. cbn [fmap option_fmap option_map mbind option_bind].
    rewrite list_lookup_fmap, Hl1. done. }
  assert (forall p, point ns p -> exists z, label_of labels p = Some z /\ (z = (-1)%Z /\ Noise p \/ Lz p z)) as Hpt2.
  { intros [r i] Hpi. destruct (Hpt r i Hpi) as (d & x & g & l & l1 & _ & _ & _ & _ & _ & _ & -> & H). eexists. split; [done|].
    destruct H as [(_ & -> & HN)|(_ & Hz & _)]; [left; by rewrite Hm1|]. right. by eapply Lz_zconn. }
  assert (forall p q, point ns p -> DCore q -> label_of labels p = label_of labels q -> exists c, DCore c /\ near p c = true /\ DConn c q) as Hborder.
  { intros p q Hpp Hq E. destruct (Hpt2 p Hpp) as (z & Ez & Hz). destruct (Hpt2 q (DCore_point _ _ _ _ Hq)) as (z' & Ez' & Hz').
    assert (z' = z) as -> by congruence. destruct Hz' as [[-> HN]|Hz']; [by destruct (Noise_core _ HN)|].
    destruct Hz as [[-> _]|Hz]; [by apply Lz_nonneg in Hz'|]. by eapply Lz_same. }
  assert (forall p, point ns p -> (label_of labels p = Some (-1)%Z <-> forall q, DCore q -> near p q = false)) as Hnoise.
  { intros p Hpp. destruct (Hpt2 p Hpp) as (z & Ez & Hz). rewrite Ez. destruct Hz as [[-> HN]|Hz]; [split; [intros _; exact HN|done]|].
    split; [intros [= ->]; by apply Lz_nonneg in Hz|]. intros HN. by apply Noise_Lz in Hz. }
  split.
  { constructor; [done| |done|done]. intros p q Hp' Hq E. destruct (Hborder p q (DCore_point _ _ _ _ Hp') Hq E) as (c & Hc & Hn & HD).
    eapply dc_trans; [by apply dc_edge|done]. }
  split.
  - intros HF.
    (* labels of near core points *)
    assert (forall r i l r' i' l', DCore (r, i) -> DCore (r', i') -> near (r, i) (r', i') = true -> G r i l -> G r' i' l' -> final pairs l = final pairs l') as Hedge.
    { intros r i l r' i' l' Hp' Hq Hn HG HG'. destruct (Hpt r i (DCore_point _ _ _ _ Hp')) as (d & x & g & _ & _ & Er & _ & _ & _ & Hi & _).
      destruct (Hpt r' i' (DCore_point _ _ _ _ Hq)) as (d' & x' & g' & _ & _ & Er' & Ex' & Hg' & Hrw' & Hi' & _).
      destruct (HR r d Er) as [HE HL]. pose proof (rank_n r d Er) as Hnr.
      assert ((r', i') ∈ unified r (rd_n d) (rd_ghosts d)) as Hin by (apply (proj1 (proj2 (proj2 HE)) i); [done|by eapply DCore_point|done]).
      apply elem_of_list_lookup in Hin as [j Ej].
      pose proof (near_label ns minpts near Hmin Hrefl Hsym r _ _ _ Hnr HE HL i j _ Hi Ej Hn Hp' Hq) as Heq.
      assert (G r j l) as HGj by (destruct HG as (d0 & z0 & ? & ? & ?); exists d0, z0; split; [done|]; split; [|done]; assert (d0 = d) as -> by congruence; by rewrite <- Heq).
      destruct (decide (j < rd_n d)) as [Hj|Hj].
      - rewrite u_own in Ej by done. injection Ej as -> ->. by rewrite (G_fun _ _ _ _ HGj HG').
      - replace j with (rd_n d + (j - rd_n d)) in Ej, HGj by lia. rewrite (u_ghost minpts Hmin) in Ej.
        apply (after_merge r' d' x' g' Er' Hg' Hrw' (final pairs) i' l' l); try done; [intros f t Hft; apply HF; by eapply Hsub|].
        exists r, d, (j - rd_n d). split; [done|]. split; [done|]. split; [done|].
        destruct (own_G r d i Er Hi) as (l0 & HG0 & [[-> HN]|[Hl0 _]]); [by destruct (Noise_core _ HN)|]. by rewrite (G_fun _ _ _ _ HG HG0). }
    assert (forall p, point ns p -> exists l, G (fst p) (snd p) l /\ label_of labels p = Some (final pairs l)) as HlabG.
    { intros [r i] Hpi. destruct (Hpt r i Hpi) as (d & x & g & l & l1 & _ & Ex & _ & _ & _ & HG & -> & H). exists l. split; [done|]. f_equal.
      destruct H as [(-> & -> & _)|(_ & _ & [->|Hin])]; [done|done|]. symmetry. apply HF. by eapply Hsub. }
    assert (forall p q, DConn p q -> (DCore p <-> DCore q) /\ (DCore p -> label_of labels p = label_of labels q)) as Hconn.
    { intros p q HD. induction HD as [p q (Hp' & Hq & Hn)|p|p q _ [IH1 IH2]|p q s _ [IH1 IH2] _ [IH3 IH4]].
      - split; [tauto|]. intros _. destruct (HlabG p (DCore_point _ _ _ _ Hp')) as (l & HG & ->). destruct (HlabG q (DCore_point _ _ _ _ Hq)) as (l' & HG' & ->).
        f_equal. destruct p, q. cbn [fst snd] in HG, HG'. by apply (Hedge _ _ _ _ _ _ Hp' Hq Hn).
      - done.
      - split; [tauto|]. intros H. symmetry. apply IH2. tauto.
      - split; [tauto|]. intros H. rewrite IH2 by done. apply IH4. tauto. }
    constructor.
    + done.
    + intros p q Hp' Hq. split; [|intros HD; by apply (Hconn p q HD)].
      intros E. destruct (Hborder p q (DCore_point _ _ _ _ Hp') Hq E) as (c & Hc & Hn & HD). eapply dc_trans; [by apply dc_edge|done].
    + intros p Hp'. destruct (Hpt2 p (DCore_point _ _ _ _ Hp')) as (z & Ez & [[_ HN]|Hz]); [by destruct (Noise_core _ HN)|]. exists z. split; [done|]. by eapply Lz_nonneg.
    + intros [r i] Hpp HnC (q0 & Hq0 & Hn0). destruct (HlabG _ Hpp) as (l & HG & ->). cbn [fst snd] in HG.
      destruct (Hpt r i Hpp) as (d & x & g & _ & _ & Er & _ & _ & _ & Hi & _).
      destruct (G_own r d i (r, i) Er (u_own _ _ _ _ Hi)) as (z & HGz & H). rewrite (G_fun _ _ _ _ HG HGz) in *. clear HG l.
      destruct H as [[-> Hbad]|(_ & c & m & Hcz & HLc & Em & HGm)].
      { exfalso. destruct (HR r d Er) as [HE HL]. apply (own_label ns minpts near Hmin Hrefl Hsym r _ _ _ (rank_n r d Er) HE HL i Hi); [by exists q0|done]. }
      (* the label names the core point c, whose own label is merged with it *)
      destruct HLc as (Hc & q & Hq & Hn & HD). exists q. split; [done|]. split; [done|].
      rewrite (proj2 (Hconn q c HD) Hq). destruct (HlabG c (DCore_point _ _ _ _ Hc)) as (lc & HGc & ->). f_equal.
      destruct c as [rc ic]. cbn [fst snd] in HGc. destruct (Hpt rc ic (DCore_point _ _ _ _ Hc)) as (dc & xc & gc & _ & _ & Erc & Exc & Hgc & Hrwc & Hic & _).
      destruct (decide (m < rd_n d)) as [Hm|Hm].
      * rewrite u_own in Em by done. injection Em as -> ->. by rewrite (G_fun _ _ _ _ HGm HGc).
      * replace m with (rd_n d + (m - rd_n d)) in Em, HGm by lia. rewrite (u_ghost minpts Hmin) in Em.
        apply (after_merge rc dc xc gc Erc Hgc Hrwc (final pairs) ic lc z); try done; [intros f t Hft; apply HF; by eapply Hsub|].
        exists r, d, (m - rd_n d). split; [done|]. split; [done|]. split; [done|]. pose proof (gid_nonneg ns (rc, ic)). lia.
    + intros p Hpp _ HN. by apply Hnoise.
  - intros HO f t Hin. destruct (Hone HO) as [HO' Hset]. apply final_one; try done. by apply Hset.
Qed.
End pipeline.
