(** The finalize_labels kernel of DBSCAN, for every interleaving. *)
From Verif Require Export DbscanModel UnionFindProof.

Definition cnt (P : nat -> bool) (k : nat) : nat := length (List.filter P (seq 0 k)).
Lemma cnt_S P k : cnt P (S k) = cnt P k + (if P k then 1 else 0).
Proof. unfold cnt. rewrite seq_S, List.filter_app, app_length. simpl. destruct (P k); simpl; lia. Qed.
Lemma cnt_ext P Q k : (forall i, i < k -> P i = Q i) -> cnt P k = cnt Q k.
Proof.
  induction k as [|k IH]; intros H; [done|]. rewrite !cnt_S. rewrite IH by (intros; apply H; lia). by rewrite (H k) by lia.
Qed.
Lemma cnt_flip P Q k x : x < k -> P x = false -> Q x = true -> (forall i, i < k -> i <> x -> P i = Q i) -> cnt Q k = S (cnt P k).
Proof.
  induction k as [|k IH]; intros Hx HP HQ H; [lia|]. rewrite !cnt_S. destruct (decide (x = k)) as [->|Hne].
  - rewrite HP, HQ. rewrite (cnt_ext P Q k) by (intros; apply H; lia). lia.
  - rewrite IH; [|lia|done|done|intros; apply H; lia]. rewrite (H k) by lia. lia.
Qed.
Lemma cnt_le P k x : x < k -> P x = true -> 1 <= cnt P k.
Proof.
  induction k as [|k IH]; intros Hx HP; [lia|]. rewrite cnt_S. destruct (decide (x = k)) as [->|]; [rewrite HP; lia|].
  specialize (IH ltac:(lia) HP). lia.
Qed.
Lemma cnt_two P k x y : x < k -> y < k -> x <> y -> P x = true -> P y = true -> 2 <= cnt P k.
Proof.
  intros Hx Hy Hne HPx HPy.
  assert (cnt P k = S (cnt (fun i => negb (i =? x) && P i) k)) as ->.
  { apply (cnt_flip _ _ _ x); [done|by rewrite Nat.eqb_refl|done|]. intros i _ Hi. destruct (Nat.eqb_spec i x); done. }
  assert (1 <= cnt (fun i => negb (i =? x) && P i) k); [|lia]. apply (cnt_le _ _ y); [done|]. destruct (Nat.eqb_spec y x); [by subst|done].
Qed.
Lemma cnt_one P k x : x < k -> P x = true -> (forall i, i < k -> P i = true -> i = x) -> cnt P k = 1.
Proof.
  intros Hx HP H. assert (cnt P k = S (cnt (fun i => negb (i =? x) && P i) k)) as ->.
  { apply (cnt_flip _ _ _ x); [done|by rewrite Nat.eqb_refl|done|]. intros i _ Hi. destruct (Nat.eqb_spec i x); done. }
  assert (cnt (fun i => negb (i =? x) && P i) k = 0) as ->; [|done].
  transitivity (cnt (fun _ => false) k); [|by clear; induction k; [done|rewrite cnt_S, IHk]].
  apply cnt_ext. intros i Hi. destruct (Nat.eqb_spec i x) as [->|Hne]; [done|]. simpl. destruct (P i) eqn:E; [|done]. by destruct Hne, (H i).
Qed.

(** ** Finalize *)
Section Finalize.
Variable n : nat.
Variable L0 : list nat.
Hypothesis L0_len : length L0 = n.
Definition Pt (y : nat) : Prop := y < n /\ lab L0 y <= y.
Hypothesis L0_ok : forall x, x < n -> Pt (lab L0 x).
Definition target (x : nat) : nat := root L0 (lab L0 x).

Lemma Pt_lab y : Pt y -> Pt (lab L0 y) /\ root L0 (lab L0 y) = root L0 y.
Proof.
  intros [H1 H2]. split; [by apply L0_ok|]. destruct (decide (lab L0 y = y)) as [->|]; [done|]. symmetry. apply root_lt. lia.
Qed.
Lemma Pt_root y : Pt y -> Pt (root L0 y) /\ lab L0 (root L0 y) = root L0 y.
Proof.
  induction y as [y IH] using lt_wf_ind. intros HP. rewrite root_unfold. destruct (Nat.ltb_spec (lab L0 y) y) as [H|H].
  - apply IH; [done|]. by apply Pt_lab.
  - split; [done|]. destruct HP. lia.
Qed.
Lemma target_Pt x : x < n -> Pt (target x) /\ lab L0 (target x) = target x /\ root L0 (target x) = target x.
Proof.
  intros H. destruct (Pt_root _ (L0_ok x H)) as [H1 H2]. split; [done|]. split; [done|]. apply root_ge. unfold target. lia.
Qed.

Definition early (pc : fpc) : bool := match pc with F0 | F1 _ _ | F2 _ _ => true | _ => false end.
Definition is_fdone (pc : fpc) : bool := match pc with FDone => true | _ => false end.
Definition done_at (s : fstate) (r i : nat) : bool :=
  is_fdone (default F0 (f_thr s !! i)) && (target i =? r).
Definition FPc (l : list nat) (i : nat) (pc : fpc) : Prop :=
  match pc with
  | F0 => True
  | F1 v old => Pt v /\ root L0 v = target i /\ old = lab L0 i
  | F2 v old => v = target i /\ old = lab L0 i
  | F4 y => y = target i
  | F3 | FDone => True
  end.
Record FInv (s : fstate) : Prop := {
  fi_l : length (f_labels s) = n;
  fi_s : length (f_sizes s) = n;
  fi_t : length (f_thr s) = n;
  fi_lab : forall i pc, f_thr s !! i = Some pc -> lab (f_labels s) i = if early pc then lab L0 i else target i;
  fi_pc : forall i pc, f_thr s !! i = Some pc -> FPc (f_labels s) i pc;
  fi_sizes : forall r, r < n -> f_sizes s !! r = Some (cnt (done_at s r) n) }.
Definition fpot1 (pc : fpc) : nat := match pc with F0 => n + 5 | F1 v _ => v + 4 | F2 _ _ => 3 | F3 => 2 | F4 _ => 1 | FDone => 0 end.
Definition fpot (s : fstate) : nat := sum_list_with fpot1 (f_thr s).

Lemma fi_any s y : FInv s -> Pt y -> lab (f_labels s) y = lab L0 y \/ lab (f_labels s) y = root L0 y.
Proof.
  intros I HP. destruct (lookup_lt_is_Some_2 (f_thr s) y) as [pc Hpc]; [rewrite (fi_t _ I); apply HP|].
  rewrite (fi_lab _ I _ _ Hpc). destruct (early pc); [by left|right]. unfold target. by apply Pt_lab.
Qed.

(** a step that touches neither array, or writes labels(i) *)
Lemma fstep_frame s i pc pc' l' : FInv s -> f_thr s !! i = Some pc -> is_fdone pc = false -> is_fdone pc' = false ->
  length l' = n -> (forall x, x <> i -> lab l' x = lab (f_labels s) x) ->
  lab l' i = (if early pc' then lab L0 i else target i) -> FPc l' i pc' -> fpot1 pc' < fpot1 pc ->
  FInv (FState l' (f_sizes s) (<[i:=pc']> (f_thr s))) /\ fpot (FState l' (f_sizes s) (<[i:=pc']> (f_thr s))) < fpot s.
Proof.
  intros I Hi Hd Hd' Hl Hx Hli HF Hp. split.
  - constructor; simpl.
    + done.
    + apply I.
    + rewrite insert_length. apply I.
    + intros j q Hj. apply upd_cases in Hj as [(-> & -> & _)|[Hne Hj]]; [done|]. rewrite Hx by done. by apply (fi_lab _ I).
    + intros j q Hj. apply upd_cases in Hj as [(-> & -> & _)|[Hne Hj]]; [done|].
      pose proof (fi_pc _ I _ _ Hj) as H. by destruct q.
    + intros r Hr. rewrite (fi_sizes _ I r Hr). f_equal. apply cnt_ext. intros j _. unfold done_at. simpl.
      destruct (decide (j = i)) as [->|Hne].
      * rewrite list_lookup_insert by (by eapply lookup_lt_Some). rewrite Hi. simpl. unfold id. by rewrite Hd, Hd'.
      * by rewrite list_lookup_insert_ne.
  - unfold fpot. simpl. pose proof (sum_map_insert fpot1 _ _ _ pc' Hi). lia.
Qed.

Lemma fstep_inv s i s' : FInv s -> fstep s i = Some s' -> FInv s' /\ fpot s' < fpot s.
Proof.
  intros I. unfold fstep. destruct (f_thr s !! i) as [pc|] eqn:Hi; simpl; [|done].
  assert (i < n) as Hin by (rewrite <- (fi_t _ I); by eapply lookup_lt_Some).
  pose proof (fi_lab _ I _ _ Hi) as HL. pose proof (fi_pc _ I _ _ Hi) as HP. pose proof (fi_l _ I) as Hlen.
  destruct pc as [|v old|v old| |y|]; simpl in HL, HP.
  - rewrite lab_lookup by lia. simpl. intros [= <-]. rewrite HL. eapply fstep_frame; eauto.
    + simpl. split; [by apply L0_ok|]. done.
    + simpl. destruct (L0_ok i Hin). lia.
  - destruct HP as (HPv & HR & ->). rewrite lab_lookup by (destruct HPv; lia). simpl. intros [= <-].
    destruct (Nat.ltb_spec (lab (f_labels s) v) v) as [Hlt|Hge].
    + eapply fstep_frame; eauto.
      * simpl. destruct (fi_any s v I HPv) as [E|E]; rewrite E.
        -- destruct (Pt_lab v HPv) as [? ->]. done.
        -- destruct (Pt_root v HPv) as [HPr Hr]. split; [done|]. split; [|done]. rewrite <- HR. apply root_ge. lia.
      * simpl. lia.
    + eapply fstep_frame; eauto.
      * simpl. split; [|done]. rewrite <- HR. destruct HPv as [Hv1 Hv2]. pose proof (root_le L0 v).
        destruct (fi_any s v I (conj Hv1 Hv2)) as [E|E]; rewrite E in Hge; [|lia]. symmetry. by apply root_ge.
      * simpl. lia.
  - destruct HP as [-> ->]. destruct (Nat.eqb_spec (target i) (lab L0 i)) as [E|E]; simpl.
    + intros [= <-]. eapply fstep_frame; eauto; simpl; first [done|lia|congruence].
    + rewrite wr_Some by lia. simpl. intros [= <-]. eapply fstep_frame; eauto.
      * by rewrite insert_length.
      * intros x Hx. rewrite lab_insert by lia. by destruct (decide (x = i)).
      * rewrite lab_insert by lia. by destruct (decide (i = i)).
      * first [done|simpl; lia].
  - rewrite lab_lookup by lia. simpl. intros [= <-]. eapply fstep_frame; eauto; simpl; first [done|lia|congruence].
  - subst y. destruct (target_Pt i Hin) as [[Ht _] _]. rewrite (fi_sizes _ I _ Ht). simpl. intros [= <-]. split.
    + constructor; simpl.
      * done.
      * rewrite insert_length. apply I.
      * rewrite insert_length. apply I.
      * intros j q Hj. apply upd_cases in Hj as [(-> & -> & _)|[Hne Hj]]; [done|]. by apply (fi_lab _ I).
      * intros j q Hj. apply upd_cases in Hj as [(-> & -> & _)|[Hne Hj]]; [done|]. pose proof (fi_pc _ I _ _ Hj) as H. by destruct q.
      * intros r Hr.
        assert (forall j, j <> i -> done_at (FState (f_labels s) (<[target i:=S (cnt (done_at s (target i)) n)]> (f_sizes s)) (<[i:=FDone]> (f_thr s))) r j = done_at s r j) as HE.
        { intros j Hj. unfold done_at. simpl. by rewrite list_lookup_insert_ne. }
        assert (done_at s r i = false) as E1 by (unfold done_at; by rewrite Hi).
        destruct (decide (r = target i)) as [->|Hne].
        -- rewrite list_lookup_insert by (rewrite (fi_s _ I); done). f_equal. symmetry. apply (cnt_flip _ _ _ i); [done|done| |].
           ++ unfold done_at. simpl. rewrite list_lookup_insert by (rewrite (fi_t _ I); done). simpl. apply Nat.eqb_refl.
           ++ intros j _ Hj. symmetry. by apply HE.
        -- rewrite list_lookup_insert_ne by done. rewrite (fi_sizes _ I r Hr). f_equal. apply cnt_ext. intros j _.
           destruct (decide (j = i)) as [->|Hj]; [|symmetry; by apply HE]. rewrite E1. unfold done_at. simpl.
           rewrite list_lookup_insert by (rewrite (fi_t _ I); done). simpl. destruct (Nat.eqb_spec (target i) r); [by subst|done].
    + unfold fpot. simpl. pose proof (sum_map_insert fpot1 _ _ _ FDone Hi) as H. simpl in H. lia.
  - done.
Qed.

Lemma fstep_progress s i pc : FInv s -> f_thr s !! i = Some pc -> pc <> FDone -> is_Some (fstep s i).
Proof.
  intros I Hi Hne. unfold fstep. rewrite Hi. simpl.
  assert (i < n) as Hin by (rewrite <- (fi_t _ I); by eapply lookup_lt_Some).
  pose proof (fi_pc _ I _ _ Hi) as HP. pose proof (fi_l _ I) as Hlen.
  destruct pc as [|v old|v old| |y|]; simpl in HP.
  - rewrite lab_lookup by lia. simpl. eauto.
  - destruct HP as ([Hv _] & _). rewrite lab_lookup by lia. simpl. eauto.
  - destruct (v =? old); simpl; [eauto|]. rewrite wr_Some by lia. simpl. eauto.
  - rewrite lab_lookup by lia. simpl. eauto.
  - subst y. destruct (target_Pt i Hin) as [[Ht _] _]. rewrite (fi_sizes _ I _ Ht). simpl. eauto.
  - done.
Qed.

Lemma finit_inv : FInv (finit L0) /\ fpot (finit L0) = n * (n + 5).
Proof.
  split.
  - constructor; simpl; rewrite ?replicate_length; auto.
    + intros i pc H. apply lookup_replicate in H as [-> _]. done.
    + intros i pc H. apply lookup_replicate in H as [-> _]. done.
    + intros r Hr. rewrite L0_len, lookup_replicate_2 by done. f_equal. symmetry.
      transitivity (cnt (fun _ => false) n); [|clear; induction n; [done|by rewrite cnt_S, IHn0]].
      apply cnt_ext. intros i Hi. unfold done_at. simpl. by rewrite L0_len, lookup_replicate_2.
  - unfold fpot. simpl. rewrite L0_len. assert (forall m, sum_list_with fpot1 (replicate m F0) = m * (n + 5)) as H; [|apply H].
    induction m as [|m IH]; simpl; [done|]. by rewrite IH.
Qed.

Lemma fexec_ok ts s : execg fstep (finit L0) ts s -> FInv s /\ length ts <= n * (n + 5).
Proof.
  intros He. destruct finit_inv as [I0 P0]. destruct (execg_inv fstep FInv fpot fstep_inv _ _ _ I0 He) as [I HL]. split; [done|lia].
Qed.
Lemma fdone_ok s : FInv s -> fall_done s ->
  length (f_labels s) = n /\ length (f_sizes s) = n /\
  forall i, i < n -> f_labels s !! i = Some (target i) /\ f_sizes s !! (target i) = Some (cnt (fun j => target j =? target i) n).
Proof.
  intros I HD. split; [apply I|]. split; [apply I|]. intros i Hi.
  destruct (lookup_lt_is_Some_2 (f_thr s) i) as [pc Hpc]; [rewrite (fi_t _ I); done|].
  pose proof (HD _ _ Hpc) as ->. split.
  - rewrite lab_lookup by (rewrite (fi_l _ I); done). by rewrite (fi_lab _ I _ _ Hpc).
  - destruct (target_Pt i Hi) as [[Ht _] _]. rewrite (fi_sizes _ I _ Ht). f_equal. apply cnt_ext. intros j Hj. unfold done_at.
    destruct (lookup_lt_is_Some_2 (f_thr s) j) as [pc Hpc']; [rewrite (fi_t _ I); done|].
    pose proof (HD _ _ Hpc') as ->. by rewrite Hpc'.
Qed.
End Finalize.

Lemma mark_noise_ok special core sizes labels n : length labels = n ->
  (forall i l, labels !! i = Some l -> is_Some (sizes !! l)) ->
  exists out, mark_noise special core sizes labels = Some out /\ length out = n /\
    forall i l c, labels !! i = Some l -> sizes !! l = Some c ->
      out !! i = Some (if (c =? 1) && (special || negb (core i)) then (-1)%Z else Z.of_nat l).
Proof.
  intros Hn HS. unfold mark_noise. rewrite Hn.
  set (f := fun p : nat * nat => c ← sizes !! snd p; Some (if (c =? 1) && (special || negb (core (fst p))) then (-1)%Z else Z.of_nat (snd p))).
  assert (forall i p, zip (seq 0 n) labels !! i = Some p -> fst p = i /\ labels !! i = Some (snd p)) as HZ.
  { intros i p H. apply lookup_zip_with_Some in H as (x & y & -> & H1 & H2). apply lookup_seq in H1 as [-> _]. done. }
  assert (length (zip (seq 0 n) labels) = n) as HZl by (rewrite zip_with_length, seq_length; lia).
  destruct (mapM f (zip (seq 0 n) labels)) as [out|] eqn:E.
  - exists out. split; [done|]. apply mapM_Some in E. split; [by rewrite <- (Forall2_length _ _ _ E)|].
    intros i l c Hl Hc. destruct (lookup_lt_is_Some_2 (zip (seq 0 n) labels) i) as [p Hp]; [rewrite HZl, <- Hn; by eapply lookup_lt_Some|].
    destruct (Forall2_lookup_l _ _ _ _ _ E Hp) as (z & Hz & Hf). destruct (HZ _ _ Hp) as [<- H2]. rewrite Hz.
    rewrite H2 in Hl. injection Hl as <-. unfold f in Hf. rewrite Hc in Hf. simpl in Hf. by injection Hf as <-.
  - exfalso. assert (is_Some (mapM f (zip (seq 0 n) labels))) as [? ?]; [|congruence]. apply mapM_is_Some. apply Forall_forall.
    intros p Hp. apply elem_of_list_lookup in Hp as [i Hi]. destruct (HZ _ _ Hi) as [_ H2]. change (is_Some (f p)). unfold f.
    destruct (HS _ _ H2) as [c Hc]. cbv beta; rewrite Hc. simpl. eauto.
Qed.
