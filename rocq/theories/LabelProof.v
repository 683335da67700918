(** Proofs about the node labelling kernels (LabelModel.v). *)
From Verif Require Export LabelModel TraversalProof.
From Verif Require Import KernelAlgProof.

(** ** The reduction kernel on any binary tree given by its sibling relation *)
Section Kernel.
Variable n : nat.
Variable parents : list nat.
Variable Sib : nat -> nat -> nat -> Prop.   (* Sib p a b: the children of p are a and b, in some order *)
Variable F : nat -> Z.
Variable W : nat -> nat.
Hypothesis n2 : 2 <= n.
Hypothesis S_sym : forall p a b, Sib p a b -> Sib p b a.
Hypothesis S_p : forall p a b, Sib p a b -> n <= p < 2 * n - 1.
Hypothesis S_a : forall p a b, Sib p a b -> a < 2 * n - 1 /\ a <> n /\ a <> b.
Hypothesis S_par : forall p a b, Sib p a b -> parents !! a = Some p.
Hypothesis S_W : forall p a b, Sib p a b -> W a < W p.
Hypothesis S_F : forall p a b, Sib p a b -> F p = if decide (F a = F b) then F a else indeterminate.
Hypothesis S_ex : forall c, c < 2 * n - 1 -> c <> n -> exists p b, Sib p c b.
Hypothesis S_all : forall p, n <= p < 2 * n - 1 -> exists a b, Sib p a b.
Hypothesis S_two : forall p a b c d, Sib p a b -> Sib p c d -> c = a \/ c = b.
Hypothesis W_le : forall i, i < 2 * n - 1 -> W i <= n.
Hypothesis F_leaf : forall i, i < n -> F i <> untouched.

Lemma S_det p p' a b b' : Sib p a b -> Sib p' a b' -> p' = p /\ b' = b.
Proof.
  intros H H'. pose proof (S_par _ _ _ H) as E. pose proof (S_par _ _ _ H') as E'.
  rewrite E in E'. injection E' as <-. split; [done|].
  destruct (S_two _ _ _ _ _ H (S_sym _ _ _ H')) as [->|]; [|done].
  destruct (S_a _ _ _ H') as (_ & _ & ?). done.
Qed.

Lemma F_ok i : i < 2 * n - 1 -> F i <> untouched.
Proof.
  intros Hi. remember (W i) as w eqn:Hw. revert i Hi Hw.
  induction w as [w IH] using lt_wf_ind. intros i Hi ->.
  destruct (decide (i < n)); [by apply F_leaf|].
  destruct (S_all i) as (a & b & HS); [lia|]. rewrite (S_F _ _ _ HS).
  destruct (decide (F a = F b)); [|done].
  apply (IH (W a)); [by eapply S_W| |done]. exact (proj1 (S_a _ _ _ HS)).
Qed.

Definition loc (p : lpc) : option nat :=
  match p with LRead i => Some i | LCas i _ => Some i | LWrite i => Some i | LDone => None end.
Definition At (s : lstate) (i : nat) : Prop := exists t p, ls_pcs s !! t = Some p /\ loc p = Some i.
Definition Writing (s : lstate) (i : nat) : Prop := exists t, ls_pcs s !! t = Some (LWrite i).
Definition Full (arr : nat -> bool) (p : nat) : Prop := forall a b, Sib p a b -> arr a = true /\ arr b = true.

Definition ThOK (s : lstate) (arr : nat -> bool) (p : lpc) : Prop :=
  match p with
  | LRead i => i < 2 * n - 1 /\ i <> n /\ arr i = false /\ Full arr i /\ ls_labels s !! i = Some (F i)
  | LCas i l => i < 2 * n - 1 /\ i <> n /\ arr i = false /\ Full arr i /\ ls_labels s !! i = Some (F i) /\ l = F i
  | LWrite i => n <= i < 2 * n - 1 /\ arr i = false /\ Full arr i /\ F i = indeterminate
  | LDone => True
  end.

Record LInv (s : lstate) (arr : nat -> bool) : Prop := {
  iv_len : length (ls_labels s) = 2 * n - 1;
  iv_leaf : forall i, i < n -> ls_labels s !! i = Some (F i) /\ (arr i = true \/ At s i);
  iv_none : forall p a b, Sib p a b -> arr a = false -> arr b = false -> ls_labels s !! p = Some untouched;
  iv_one : forall p a b, Sib p a b -> arr a = true -> arr b = false -> ls_labels s !! p = Some (F a);
  iv_both : forall p a b, Sib p a b -> arr a = true -> arr b = true ->
    Writing s p \/ (ls_labels s !! p = Some (F p) /\ (p = n \/ arr p = true \/ At s p));
  iv_arr : forall p, arr p = true -> Full arr p;
  iv_th : forall t p, ls_pcs s !! t = Some p -> ThOK s arr p;
  iv_uniq : forall t t' p p' i, ls_pcs s !! t = Some p -> ls_pcs s !! t' = Some p' ->
     loc p = Some i -> loc p' = Some i -> t = t' }.

Definition lpot1 (p : lpc) : nat :=
  match p with
  | LRead i => 3 * (n - W i) + 3
  | LCas i _ => 3 * (n - W i) + 2
  | LWrite p => 3 * (n - W p) + 4
  | LDone => 0
  end.
Definition lpot (s : lstate) : nat := sum_list_with lpot1 (ls_pcs s).

Lemma leaf_no_sib i a b : i < n -> ~ Sib i a b.
Proof. intros H HS. apply S_p in HS. lia. Qed.

Lemma init_LInv labels0 : length labels0 = 2 * n - 1 -> (forall i, i < n -> labels0 !! i = Some (F i)) ->
  LInv (linit n labels0) (fun _ => false).
Proof.
  intros HL HF. constructor; simpl.
  - rewrite app_length, take_length, replicate_length. lia.
  - intros i Hi. rewrite lookup_app_l by (rewrite take_length; lia). rewrite lookup_take by done. split; [auto|].
    right. exists i, (LRead i). simpl. rewrite list_lookup_fmap, lookup_seq_lt by done. done.
  - intros p a b HS _ _. apply S_p in HS. rewrite lookup_app_r by (rewrite take_length; lia).
    rewrite take_length. apply lookup_replicate. split; [done|]. lia.
  - done.
  - done.
  - done.
  - intros t p Hp. apply list_lookup_fmap_inv in Hp as (i & -> & Hi). apply lookup_seq in Hi as [-> Hi].
    simpl. split; [lia|]. split; [lia|]. split; [done|]. split; [|rewrite lookup_app_l by (rewrite take_length; lia); rewrite lookup_take by lia; auto].
    intros a b HS. by destruct (leaf_no_sib t a b Hi).
  - intros t t' p p' i Hp Hp' H H'. apply list_lookup_fmap_inv in Hp as (j & -> & Hj), Hp' as (j' & -> & Hj').
    apply lookup_seq in Hj as [-> ?], Hj' as [-> ?]. simpl in *. congruence.
Qed.

Lemma At_upd s s' t p q : ls_pcs s !! t = Some p -> ls_pcs s' = <[t:=q]> (ls_pcs s) ->
  forall i, loc p <> Some i -> At s i -> At s' i.
Proof.
  intros Ht HE i Hne (u & x & Hu & Hx). exists u, x. split; [|done].
  rewrite HE. destruct (decide (u = t)) as [->|]; [congruence|]. by rewrite list_lookup_insert_ne.
Qed.
Lemma At_new s s' t p q : ls_pcs s !! t = Some p -> ls_pcs s' = <[t:=q]> (ls_pcs s) ->
  forall i, loc q = Some i -> At s' i.
Proof.
  intros Ht HE i Hq. exists t, q. split; [|done]. rewrite HE.
  rewrite list_lookup_insert; [done|]. by apply lookup_lt_Some in Ht.
Qed.

(** arrival of node i *)
Definition arr_set (arr : nat -> bool) (i : nat) : nat -> bool := fun j => if decide (j = i) then true else arr j.
Lemma arr_set_same arr i : arr_set arr i i = true.
Proof. unfold arr_set. by destruct (decide (i = i)). Qed.
Lemma arr_set_ne arr i j : j <> i -> arr_set arr i j = arr j.
Proof. unfold arr_set. by destruct (decide (j = i)). Qed.
Lemma arr_set_mono arr i j : arr j = true -> arr_set arr i j = true.
Proof. unfold arr_set. by destruct (decide (j = i)). Qed.
Lemma Full_mono arr i p : Full arr p -> Full (arr_set arr i) p.
Proof. intros H a b HS. destruct (H a b HS). auto using arr_set_mono. Qed.

Lemma pot_upd s t p q labels : ls_pcs s !! t = Some p -> lpot1 q < lpot1 p ->
  lpot (LState labels (<[t:=q]> (ls_pcs s))) < lpot s.
Proof. intros H Hlt. unfold lpot. simpl. pose proof (sum_map_insert lpot1 _ _ _ q H). lia. Qed.

Lemma lread_step s arr t i : LInv s arr -> ls_pcs s !! t = Some (LRead i) ->
  exists s', lstep n parents s t = Some s' /\ (exists arr', LInv s' arr') /\ lpot s' < lpot s.
Proof.
  intros I Ht. pose proof (iv_th _ _ I _ _ Ht) as (H1 & H2 & H3 & H4 & H5).
  unfold lstep. rewrite Ht. simpl. rewrite H5. simpl. eexists. split; [done|].
  split; [|eapply pot_upd; [done|simpl; lia]]. exists arr.
  assert (forall j, At s j -> At (LState (ls_labels s) (<[t:=LCas i (F i)]> (ls_pcs s))) j) as HA.
  { intros j Hj. destruct (decide (j = i)) as [->|].
    - eapply At_new; [done|done|done].
    - eapply At_upd; [done|done| |done]. simpl. congruence. }
  constructor; simpl.
  - exact (iv_len _ _ I).
  - intros j Hj. destruct (iv_leaf _ _ I j Hj) as [? [?|?]]; auto.
  - exact (iv_none _ _ I).
  - exact (iv_one _ _ I).
  - intros p a b HS Ha Hb. destruct (iv_both _ _ I p a b HS Ha Hb) as [[u Hu]|[? [?|[?|?]]]]; [|by auto 9..].
    left. exists u. simpl. rewrite list_lookup_insert_ne; [done|]. intros <-. congruence.
  - exact (iv_arr _ _ I).
  - intros u p Hu. apply upd_cases in Hu as [(-> & -> & _)|[_ Hu]]; simpl; [done|]. exact (iv_th _ _ I _ _ Hu).
  - intros u u' p p' j Hu Hu' Hl Hl'.
    apply upd_cases in Hu as [(-> & -> & _)|[Hne Hu]], Hu' as [(-> & -> & _)|[Hne' Hu']]; simpl in *; try done.
    + eapply (iv_uniq _ _ I); [exact Ht|exact Hu'|done|done].
    + eapply (iv_uniq _ _ I); [exact Hu|exact Ht|done|done].
    + eapply (iv_uniq _ _ I); eauto.
Qed.

(** Only one thread can be at a node: another thread's location differs. *)
Lemma other_loc s arr t p i u q j : LInv s arr -> ls_pcs s !! t = Some p -> loc p = Some i -> u <> t ->
  ls_pcs s !! u = Some q -> loc q = Some j -> j <> i.
Proof. intros I Ht Hp Hne Hu Hq ->. apply Hne. eapply (iv_uniq _ _ I); eauto. Qed.

(** The thread moves on from writing (or not) at p. *)
Lemma lwrite_step s arr t p : LInv s arr -> ls_pcs s !! t = Some (LWrite p) ->
  exists s', lstep n parents s t = Some s' /\ (exists arr', LInv s' arr') /\ lpot s' < lpot s.
Proof.
  intros I Ht. pose proof (iv_th _ _ I _ _ Ht) as (H1 & H2 & H3 & H4).
  unfold lstep. rewrite Ht. simpl. rewrite wr_Some by (rewrite (iv_len _ _ I); lia). simpl.
  eexists. split; [done|]. split.
  2:{ eapply pot_upd; [done|]. unfold lnext. destruct (Nat.eqb_spec p n); simpl; lia. }
  exists arr. set (s' := LState _ _).
  assert (p < length (ls_labels s)) as Hlen by (rewrite (iv_len _ _ I); lia).
  assert (ls_labels s' !! p = Some (F p)) as Ep by (simpl; rewrite list_lookup_insert by done; by rewrite H4).
  assert (forall j, j <> p -> ls_labels s' !! j = ls_labels s !! j) as Ene by (intros; simpl; by rewrite list_lookup_insert_ne).
  assert (forall j, j <> p -> At s j -> At s' j) as HA.
  { intros j Hj HA. eapply At_upd; [exact Ht|done| |done]. simpl. congruence. }
  assert (forall u q, ls_pcs s' !! u = Some q -> (u = t /\ q = lnext n p) \/ (u <> t /\ ls_pcs s !! u = Some q /\ forall j, loc q = Some j -> j <> p)) as HC.
  { intros u q Hu. apply upd_cases in Hu as [(-> & -> & _)|[Hne Hu]]; [by left|right]. split; [done|]. split; [done|].
    intros j Hj. exact (other_loc s arr t _ p u q j I Ht eq_refl Hne Hu Hj). }
  constructor.
  - simpl. rewrite insert_length. apply I.
  - intros j Hj. rewrite Ene by lia. destruct (iv_leaf _ _ I j Hj) as [? [?|?]]; split; auto. right. apply HA; [lia|done].
  - intros q a b HS Ha Hb. destruct (decide (q = p)) as [->|Hne].
    + destruct (H3 a b HS). congruence.
    + rewrite Ene by done. by apply (iv_none _ _ I _ a b).
  - intros q a b HS Ha Hb. destruct (decide (q = p)) as [->|Hne].
    + destruct (H3 a b HS). congruence.
    + rewrite Ene by done. by apply (iv_one _ _ I _ a b).
  - intros q a b HS Ha Hb. destruct (decide (q = p)) as [->|Hne].
    + right. split; [done|]. destruct (decide (p = n)) as [|Hn]; [by left|]. right. right.
      exists t, (LRead p). split; [|done]. unfold s', lnext; simpl. destruct (Nat.eqb_spec p n); [done|].
      rewrite list_lookup_insert; [done|]. by apply lookup_lt_Some in Ht.
    + rewrite Ene by done. destruct (iv_both _ _ I q a b HS Ha Hb) as [[u Hu]|[? [?|[?|?]]]]; [|by auto 9..].
      left. exists u. simpl. rewrite list_lookup_insert_ne; [done|]. intros <-. congruence.
  - exact (iv_arr _ _ I).
  - intros u q Hu. destruct (HC _ _ Hu) as [[-> ->]|(Hne & Hu' & Hj)].
    + unfold lnext. destruct (Nat.eqb_spec p n); simpl; [done|].
      split; [lia|]. split; [done|]. split; [done|]. split; [done|]. exact Ep.
    + pose proof (iv_th _ _ I _ _ Hu') as HT. destruct q as [i|i l|i|]; simpl in HT |- *; [| |done|done].
      * destruct HT as (?&?&?&?&E). split; [done|]. split; [done|]. split; [done|]. split; [done|].
        rewrite list_lookup_insert_ne; [done|]. intros <-. by apply (Hj p).
      * destruct HT as (?&?&?&?&E&?). split; [done|]. split; [done|]. split; [done|]. split; [done|]. split; [|done].
        rewrite list_lookup_insert_ne; [done|]. intros <-. by apply (Hj p).
  - intros u u' q q' j Hu Hu' Hl Hl'.
    assert (forall k, loc (lnext n p) = Some k -> k = p) as HN.
    { unfold lnext. intros k. destruct (Nat.eqb_spec p n); simpl; congruence. }
    destruct (HC _ _ Hu) as [[-> ->]|(Hne & Hu1 & Hj)], (HC _ _ Hu') as [[-> ->]|(Hne' & Hu1' & Hj')]; try done.
    + apply HN in Hl. by apply Hj' in Hl'.
    + apply HN in Hl'. by apply Hj in Hl.
    + exact (iv_uniq _ _ I u u' q q' j Hu1 Hu1' Hl Hl').
Qed.

Lemma lcas_step s arr t i l : LInv s arr -> ls_pcs s !! t = Some (LCas i l) ->
  exists s', lstep n parents s t = Some s' /\ (exists arr', LInv s' arr') /\ lpot s' < lpot s.
Proof.
  intros I Ht. pose proof (iv_th _ _ I _ _ Ht) as (H1 & H2 & H3 & H4 & H5 & ->).
  destruct (S_ex i H1 H2) as (p & b & HS). pose proof (S_par _ _ _ HS) as HP.
  pose proof (S_p _ _ _ HS) as Hp. pose proof (S_a _ _ _ HS) as (_ & _ & Hib). pose proof (S_a _ _ _ (S_sym _ _ _ HS)) as (Hb1 & Hb2 & _).
  pose proof (S_W _ _ _ HS) as HW.
  pose proof (W_le p ltac:(lia)) as HWp. pose proof (F_ok i H1) as HFi. pose proof (F_ok b Hb1) as HFb.
  assert (p < length (ls_labels s)) as Hlen by (rewrite (iv_len _ _ I); lia).
  assert (p <> i) as Hpi by (intros ->; lia).
  assert (arr p = false) as Hap.
  { destruct (arr p) eqn:E; [|done]. destruct (iv_arr _ _ I p E i b HS). congruence. }
  unfold lstep. rewrite Ht. simpl. rewrite HP. simpl.
  assert (forall u q, u <> t -> ls_pcs s !! u = Some q -> forall j, loc q = Some j -> j <> i) as Hoth.
  { intros u q Hne Hu j Hj. exact (other_loc s arr t _ i u q j I Ht eq_refl Hne Hu Hj). }
  (* no thread is at p yet: i has not arrived *)
  assert (forall u q, ls_pcs s !! u = Some q -> loc q <> Some p) as Hnop.
  { intros u q Hu Hq. pose proof (iv_th _ _ I _ _ Hu) as HT.
    destruct q; simpl in Hq, HT; try done; injection Hq as ->.
    - destruct HT as (_&_&_&HF&_). destruct (HF i b HS). congruence.
    - destruct HT as (_&_&_&HF&_). destruct (HF i b HS). congruence.
    - destruct HT as (_&_&HF&_). destruct (HF i b HS). congruence. }
  assert (forall q a c, Sib q a c -> q <> p -> a <> i /\ c <> i) as HSne.
  { intros q a c HQ Hne. split; intros ->.
    - destruct (S_det _ _ _ _ _ HS HQ). done.
    - destruct (S_det _ _ _ _ _ HS (S_sym _ _ _ HQ)). done. }
  destruct (arr b) eqn:Hb.
  - (* second arrival *)
    pose proof (iv_one _ _ I p b i (S_sym _ _ _ HS) Hb H3) as HL. rewrite HL. simpl.
    destruct (Z.eqb_spec (F b) untouched); [done|].
    assert (F p = if decide (F b = F i) then F b else indeterminate) as HFp by exact (S_F _ _ _ (S_sym _ _ _ HS)).
    set (q := if negb (F b =? F i)%Z then LWrite p else lnext n p).
    exists (LState (ls_labels s) (<[t:=q]> (ls_pcs s))). split; [unfold q; destruct (negb (F b =? F i)%Z); done|].
    split.
    2:{ eapply pot_upd; [done|]. unfold q, lnext. destruct (negb (F b =? F i)%Z), (Nat.eqb_spec p n); simpl; lia. }
    exists (arr_set arr i). set (s' := LState _ _).
    assert (forall j, loc q = Some j -> j = p) as Hq.
    { unfold q, lnext. intros j. destruct (negb (F b =? F i)%Z), (Nat.eqb_spec p n); simpl; congruence. }
    assert (forall j, j <> i -> At s j -> At s' j) as HA.
    { intros j Hj HA. eapply At_upd; [exact Ht|done| |done]. simpl. congruence. }
    assert (forall u x, ls_pcs s' !! u = Some x -> (u = t /\ x = q) \/ (u <> t /\ ls_pcs s !! u = Some x)) as HC.
    { intros u x Hu. apply upd_cases in Hu as [(-> & -> & _)|[Hne Hu]]; auto. }
    assert (Full (arr_set arr i) p) as HFull.
    { intros a c HQ. destruct (S_two _ _ _ _ _ HS HQ) as [Ha1|Ha1]; subst a.
      - destruct (S_det _ _ _ _ _ HS HQ) as [_ ->]. rewrite arr_set_same, arr_set_ne by congruence. done.
      - destruct (S_det _ _ _ _ _ (S_sym _ _ _ HS) HQ) as [_ ->]. rewrite arr_set_same, arr_set_ne by congruence. done. }
    constructor.
    + exact (iv_len _ _ I).
    + intros j Hj. simpl. destruct (iv_leaf _ _ I j Hj) as [? [?|?]]; split; auto using arr_set_mono.
      destruct (decide (j = i)) as [->|]; [left; apply arr_set_same|right; auto].
    + intros r a c HQ Ha Hc. destruct (decide (r = p)) as [->|Hne].
      * destruct (HFull a c HQ). congruence.
      * destruct (HSne _ _ _ HQ Hne). rewrite arr_set_ne in Ha, Hc by done. by apply (iv_none _ _ I _ a c).
    + intros r a c HQ Ha Hc. destruct (decide (r = p)) as [->|Hne].
      * destruct (HFull a c HQ). congruence.
      * destruct (HSne _ _ _ HQ Hne). rewrite arr_set_ne in Ha, Hc by done. by apply (iv_one _ _ I _ a c).
    + intros r a c HQ Ha Hc. destruct (decide (r = p)) as [->|Hne].
      * destruct (decide (F b = F i)) as [E|E].
        -- right. simpl. rewrite HL, HFp. split; [done|].
           destruct (decide (p = n)) as [|Hpn]; [by left|]. right. right. apply (At_new s s' t _ q Ht eq_refl).
           unfold q, lnext. rewrite E, Z.eqb_refl. simpl. by destruct (Nat.eqb_spec p n).
        -- left. exists t. simpl. rewrite list_lookup_insert by (by apply lookup_lt_Some in Ht).
           unfold q. destruct (Z.eqb_spec (F b) (F i)); done.
      * destruct (HSne _ _ _ HQ Hne). rewrite arr_set_ne in Ha, Hc by done.
        destruct (iv_both _ _ I r a c HQ Ha Hc) as [[u Hu]|[? [?|[?|?]]]].
        -- left. exists u. simpl. rewrite list_lookup_insert_ne; [done|]. intros <-. congruence.
        -- right. auto.
        -- right. split; [done|]. right. left. by apply arr_set_mono.
        -- right. split; [done|]. right. destruct (decide (r = i)) as [->|]; [left; apply arr_set_same|right; auto].
    + intros r Hr. unfold arr_set in Hr. destruct (decide (r = i)) as [->|].
      * by apply Full_mono.
      * apply Full_mono. by apply (iv_arr _ _ I).
    + intros u x Hu. destruct (HC _ _ Hu) as [[-> ->]|[Hne Hu']].
      * unfold q, lnext. destruct (Z.eqb_spec (F b) (F i)) as [E|E]; simpl.
        -- destruct (Nat.eqb_spec p n); simpl; [done|]. split; [lia|]. split; [done|].
           split; [rewrite arr_set_ne by done; done|]. split; [done|]. rewrite HL, HFp.
           destruct (decide (F b = F i)); done.
        -- split; [lia|]. split; [rewrite arr_set_ne by done; done|]. split; [done|]. rewrite HFp. by destruct (decide (F b = F i)).
      * pose proof (iv_th _ _ I _ _ Hu') as HT. pose proof (Hoth _ _ Hne Hu') as Ho.
        destruct x as [j|j l|j|]; simpl in HT, Ho |- *; [| | |done].
        -- destruct HT as (?&?&?&?&?). split; [done|]. split; [done|]. split; [rewrite arr_set_ne; auto|]. split; [by apply Full_mono|]. done.
        -- destruct HT as (?&?&?&?&?&?). split; [done|]. split; [done|]. split; [rewrite arr_set_ne; auto|]. split; [by apply Full_mono|]. done.
        -- destruct HT as (?&?&?&?). split; [done|]. split; [rewrite arr_set_ne; auto|]. split; [by apply Full_mono|]. done.
    + intros u u' x x' j Hu Hu' Hl Hl'.
      destruct (HC _ _ Hu) as [[-> ->]|(Hne & Hu1)], (HC _ _ Hu') as [[-> ->]|(Hne' & Hu1')]; try done.
      * apply Hq in Hl as ->. by apply Hnop in Hu1'.
      * apply Hq in Hl' as ->. by apply Hnop in Hu1.
      * exact (iv_uniq _ _ I u u' x x' j Hu1 Hu1' Hl Hl').
  - (* first arrival *)
    pose proof (iv_none _ _ I p i b HS H3 Hb) as HL. rewrite HL. simpl.
    eexists. split; [done|]. split; [|eapply pot_upd; [done|simpl; lia]].
    exists (arr_set arr i). set (s' := LState _ _).
    assert (ls_labels s' !! p = Some (F i)) as Ep by (simpl; by rewrite list_lookup_insert).
    assert (forall j, j <> p -> ls_labels s' !! j = ls_labels s !! j) as Ene by (intros; simpl; by rewrite list_lookup_insert_ne).
    assert (forall j, j <> i -> At s j -> At s' j) as HA.
    { intros j Hj HA. eapply At_upd; [exact Ht|done| |done]. simpl. congruence. }
    assert (forall u x, ls_pcs s' !! u = Some x -> (u = t /\ x = LDone) \/ (u <> t /\ ls_pcs s !! u = Some x)) as HC.
    { intros u x Hu. apply upd_cases in Hu as [(-> & -> & _)|[Hne Hu]]; auto. }
    assert (forall a c, Sib p a c -> (a = i /\ c = b) \/ (a = b /\ c = i)) as Htwo.
    { intros a c HQ. destruct (S_two _ _ _ _ _ HS HQ) as [Ha1|Ha1]; subst a.
      - destruct (S_det _ _ _ _ _ HS HQ) as [_ ->]. auto.
      - destruct (S_det _ _ _ _ _ (S_sym _ _ _ HS) HQ) as [_ ->]. auto. }
    constructor.
    + simpl. rewrite insert_length. apply I.
    + intros j Hj. rewrite Ene by lia. destruct (iv_leaf _ _ I j Hj) as [? [?|?]]; split; auto using arr_set_mono.
      destruct (decide (j = i)) as [->|]; [left; apply arr_set_same|right; auto].
    + intros r a c HQ Ha Hc. destruct (decide (r = p)) as [->|Hne].
      * destruct (Htwo a c HQ) as [[-> ->]|[-> ->]]; rewrite arr_set_same in *; done.
      * rewrite Ene by done. destruct (HSne _ _ _ HQ Hne). rewrite arr_set_ne in Ha, Hc by done. by apply (iv_none _ _ I _ a c).
    + intros r a c HQ Ha Hc. destruct (decide (r = p)) as [->|Hne].
      * destruct (Htwo a c HQ) as [[-> ->]|[-> ->]]; [done|]. rewrite arr_set_same in Hc. done.
      * rewrite Ene by done. destruct (HSne _ _ _ HQ Hne). rewrite arr_set_ne in Ha, Hc by done. by apply (iv_one _ _ I _ a c).
    + intros r a c HQ Ha Hc. destruct (decide (r = p)) as [->|Hne].
      * exfalso. destruct (Htwo a c HQ) as [[-> ->]|[-> ->]].
        -- rewrite arr_set_ne in Hc by congruence. congruence.
        -- rewrite arr_set_ne in Ha by congruence. congruence.
      * rewrite Ene by done. destruct (HSne _ _ _ HQ Hne). rewrite arr_set_ne in Ha, Hc by done.
        destruct (iv_both _ _ I r a c HQ Ha Hc) as [[u Hu]|[? [?|[?|?]]]].
        -- left. exists u. simpl. rewrite list_lookup_insert_ne; [done|]. intros <-. congruence.
        -- right. auto.
        -- right. split; [done|]. right. left. by apply arr_set_mono.
        -- right. split; [done|]. right. destruct (decide (r = i)) as [->|]; [left; apply arr_set_same|right; auto].
    + intros r Hr. unfold arr_set in Hr. destruct (decide (r = i)) as [->|].
      * by apply Full_mono.
      * apply Full_mono. by apply (iv_arr _ _ I).
    + intros u x Hu. destruct (HC _ _ Hu) as [[-> ->]|[Hne Hu']]; [done|].
      pose proof (iv_th _ _ I _ _ Hu') as HT. pose proof (Hoth _ _ Hne Hu') as Ho. pose proof (Hnop _ _ Hu') as Hn.
      destruct x as [j|j l|j|]; simpl in HT, Ho, Hn |- *; [| | |done].
      * destruct HT as (?&?&?&?&?). split; [done|]. split; [done|]. split; [rewrite arr_set_ne; auto|]. split; [by apply Full_mono|].
        rewrite list_lookup_insert_ne; [done|]. congruence.
      * destruct HT as (?&?&?&?&?&?). split; [done|]. split; [done|]. split; [rewrite arr_set_ne; auto|]. split; [by apply Full_mono|].
        rewrite list_lookup_insert_ne; [done|]. congruence.
      * destruct HT as (?&?&?&?). split; [done|]. split; [rewrite arr_set_ne; auto|]. split; [by apply Full_mono|]. done.
    + intros u u' x x' j Hu Hu' Hl Hl'.
      destruct (HC _ _ Hu) as [[-> ->]|(Hne & Hu1)], (HC _ _ Hu') as [[-> ->]|(Hne' & Hu1')]; try done.
      exact (iv_uniq _ _ I u u' x x' j Hu1 Hu1' Hl Hl').
Qed.

Lemma lany_step s t p : (exists arr, LInv s arr) -> ls_pcs s !! t = Some p -> p <> LDone ->
  exists s', lstep n parents s t = Some s' /\ (exists arr', LInv s' arr') /\ lpot s' < lpot s.
Proof.
  intros [arr I] Ht Hne. destruct p.
  - by eapply lread_step.
  - by eapply lcas_step.
  - by eapply lwrite_step.
  - done.
Qed.

Lemma lexec_inv s ts s' : (exists arr, LInv s arr) -> execg (lstep n parents) s ts s' ->
  (exists arr, LInv s' arr) /\ lpot s' + length ts <= lpot s.
Proof.
  apply (execg_inv (lstep n parents) (fun s => exists arr, LInv s arr)).
  intros x t x' HI Hst.
  destruct (ls_pcs x !! t) as [p|] eqn:E; [|unfold lstep in Hst; by rewrite E in Hst].
  assert (p <> LDone) as Hne by (intros ->; unfold lstep in Hst; by rewrite E in Hst).
  destruct (lany_step x t p HI E Hne) as (x'' & E' & HI' & Hp). rewrite E' in Hst. injection Hst as <-. auto.
Qed.

Lemma ldone_final s arr : LInv s arr -> lall_done s -> forall i, i < 2 * n - 1 -> ls_labels s !! i = Some (F i).
Proof.
  intros I HD.
  assert (forall i, ~ At s i) as Hno. { intros i (t & p & Ht & Hp). rewrite (HD _ _ Ht) in Hp. done. }
  assert (forall i, ~ Writing s i) as HnoW. { intros i (t & Ht). by pose proof (HD _ _ Ht). }
  assert (forall i, i < 2 * n - 1 -> ls_labels s !! i = Some (F i) /\ (i = n \/ arr i = true)) as H.
  { intros i Hi. remember (W i) as w eqn:Hw. revert i Hi Hw.
    induction w as [w IH] using lt_wf_ind. intros i Hi ->.
    destruct (decide (i < n)) as [Hl|Hl].
    - destruct (iv_leaf _ _ I i Hl) as [? [?|?]]; [auto|]. by destruct (Hno i).
    - destruct (S_all i) as (a & b & HS); [lia|]. pose proof (S_sym _ _ _ HS) as HS'.
      pose proof (S_a _ _ _ HS) as (Ha1 & Ha2 & _). pose proof (S_a _ _ _ HS') as (Hb1 & Hb2 & _).
      destruct (IH (W a) (S_W _ _ _ HS) a Ha1 eq_refl) as [_ [?|Aa]]; [done|].
      destruct (IH (W b) (S_W _ _ _ HS') b Hb1 eq_refl) as [_ [?|Ab]]; [done|].
      destruct (iv_both _ _ I i a b HS Aa Ab) as [Hw|[? [?|[?|HA]]]]; auto.
      + by destruct (HnoW i).
      + by destruct (Hno i). }
  intros i Hi. by destruct (H i Hi).
Qed.

End Kernel.

Lemma lpot_init n W labels0 : (forall i, i < n -> W i = 1) -> lpot n W (linit n labels0) = n * (3 * n).
Proof.
  intros HW. unfold lpot, linit. simpl.
  assert (forall k a, k + a <= n -> sum_list_with (lpot1 n W) (LRead <$> seq a k) = k * (3 * n)) as H.
  { induction k as [|k IH]; intros a Ha; [done|]. change (LRead <$> seq a (S k)) with (LRead a :: (LRead <$> seq (S a) k)).
    change (sum_list_with (lpot1 n W) (LRead a :: (LRead <$> seq (S a) k))) with ((lpot1 n W) (LRead a) + sum_list_with (lpot1 n W) (LRead <$> seq (S a) k)).
    rewrite IH by lia. simpl. rewrite HW by lia. lia. }
  apply H. lia.
Qed.

(** ** The children relation of a valid tree *)
Definition Child {V} (T : tree V) (p c : nat) : Prop :=
  getLeftChild T p = Some c \/ getRightChild T p = Some (Some c).
Definition TSib {V} (T : tree V) (p a b : nat) : Prop :=
  (getLeftChild T p = Some a /\ getRightChild T p = Some (Some b)) \/
  (getLeftChild T p = Some b /\ getRightChild T p = Some (Some a)).

Section Tree.
Context {V : Type} (le : V -> V -> Prop) (vol : nat -> V) (perm : list nat) (T : tree V).
Hypothesis VT : ValidTree le vol perm T.

Lemma child_node p c : Child T p c -> t_size T <= p.
Proof.
  intros H. unfold Child, getRightChild, getLeftChild, isLeaf in H. destruct (Nat.ltb_spec p (t_size T)); [|done].
  destruct H; done.
Qed.

Lemma child_range p c l r rp : Covers T p l r rp -> Child T p c ->
  exists l' r' rp', Covers T c l' r' rp' /\ l <= l' /\ r' <= r /\ r' - l' < r - l.
Proof.
  intros HC Hc. pose proof (child_node _ _ Hc) as Hp.
  destruct (node_case le vol perm T VT _ _ _ _ HC) as (s & c1 & c2 & v & Hs & E1 & E2 & _ & _ & _ & H1 & H2).
  { unfold isLeaf. apply Nat.ltb_ge. lia. }
  pose proof (Covers_range le vol perm T VT _ _ _ _ H1). pose proof (Covers_range le vol perm T VT _ _ _ _ H2).
  destruct Hc as [Hc|Hc].
  - assert (c = c1) by congruence. subst. exists l, s, (Some c2). split; [done|]. lia.
  - assert (c = c2) by congruence. subst. exists (S s), r, rp. split; [done|]. lia.
Qed.

(** Every node below node i, each with one parent. *)
Lemma covers_nodes i l r rp : Covers T i l r rp -> exists L, NoDup L /\ length L = 2 * (r - l) + 1 /\ i ∈ L /\
  (forall j, j ∈ L -> exists l' r' rp', Covers T j l' r' rp' /\ l <= l' /\ r' <= r) /\
  (forall c, c ∈ L -> c <> i -> exists p, p ∈ L /\ Child T p c) /\
  (forall p p' c, p ∈ L -> p' ∈ L -> Child T p c -> Child T p' c -> p = p').
Proof.
  induction 1 as [i rp nd Hi Hl Hr|i l s r rp c2 nd Hi Hn Hr Hs H1 IH1 H2 IH2].
  { exists [i]. split; [apply NoDup_singleton|]. split; [simpl; lia|]. split; [by left|]. split; [|split].
    - intros j ->%elem_of_list_singleton. exists i, i, rp. split; [|lia]. econstructor; eauto.
    - intros c ->%elem_of_list_singleton. done.
    - intros p p' c ->%elem_of_list_singleton ->%elem_of_list_singleton. done. }
  assert (Covers T i l r rp) as HC by (econstructor; eauto).
  destruct (node_case le vol perm T VT _ _ _ _ HC) as (s' & c1' & c2' & v & Hs' & E1 & E2 & _ & _ & _ & G1 & G2).
  { unfold isLeaf. apply Nat.ltb_ge. lia. }
  assert (c1' = n_left nd) as ->.
  { unfold getLeftChild, isLeaf in E1. destruct (Nat.ltb_spec i (t_size T)); [lia|]. rewrite Hn in E1. simpl in E1. congruence. }
  destruct (Covers_det _ _ _ _ _ H1 _ _ _ G1) as (_ & <- & E). injection E as <-. clear G1 G2 Hs'.
  set (c1 := n_left nd) in *.
  pose proof (Covers_range le vol perm T VT _ _ _ _ H1) as R1. pose proof (Covers_range le vol perm T VT _ _ _ _ H2) as R2.
  destruct IH1 as (L1 & N1 & Z1 & I1 & A1 & P1 & U1), IH2 as (L2 & N2 & Z2 & I2 & A2 & P2 & U2).
  assert (forall j, j ∈ L1 -> j ∈ L2 -> False) as Hdis.
  { intros j J1 J2. destruct (A1 _ J1) as (a & b & q & HCj & ? & ?), (A2 _ J2) as (a' & b' & q' & HCj' & ? & ?).
    destruct (Covers_det _ _ _ _ _ HCj _ _ _ HCj') as (-> & -> & _).
    pose proof (Covers_range le vol perm T VT _ _ _ _ HCj). lia. }
  assert (forall j, j ∈ L1 \/ j ∈ L2 -> j <> i) as Hni.
  { intros j [J|J] ->.
    - destruct (A1 _ J) as (a & b & q & HCj & ? & ?). destruct (Covers_det _ _ _ _ _ HC _ _ _ HCj) as (-> & -> & _). lia.
    - destruct (A2 _ J) as (a & b & q & HCj & ? & ?). destruct (Covers_det _ _ _ _ _ HC _ _ _ HCj) as (-> & -> & _). lia. }
  (* a child of a node of L1 or L2 is neither c1 nor c2 and stays on its side *)
  assert (forall p c, p ∈ L1 -> Child T p c -> c <> c1 /\ c <> c2 /\ exists a b q, Covers T c a b q /\ l <= a /\ b <= s) as K1.
  { intros p c Hp Hc. destruct (A1 _ Hp) as (a & b & q & HCp & ? & ?).
    destruct (child_range _ _ _ _ _ HCp Hc) as (a' & b' & q' & HCc & ? & ? & ?).
    split; [|split].
    - intros ->. destruct (Covers_det _ _ _ _ _ HCc _ _ _ H1) as (-> & -> & _). lia.
    - intros ->. destruct (Covers_det _ _ _ _ _ HCc _ _ _ H2) as (-> & -> & _). lia.
    - exists a', b', q'. split; [done|lia]. }
  assert (forall p c, p ∈ L2 -> Child T p c -> c <> c1 /\ c <> c2 /\ exists a b q, Covers T c a b q /\ S s <= a /\ b <= r) as K2.
  { intros p c Hp Hc. destruct (A2 _ Hp) as (a & b & q & HCp & ? & ?).
    destruct (child_range _ _ _ _ _ HCp Hc) as (a' & b' & q' & HCc & ? & ? & ?).
    split; [|split].
    - intros ->. destruct (Covers_det _ _ _ _ _ HCc _ _ _ H1) as (-> & -> & _). lia.
    - intros ->. destruct (Covers_det _ _ _ _ _ HCc _ _ _ H2) as (-> & -> & _). lia.
    - exists a', b', q'. split; [done|lia]. }
  assert (forall c, Child T i c -> c = c1 \/ c = c2) as Ki.
  { intros c [Hc|Hc]; [left|right]; congruence. }
  exists (i :: L1 ++ L2). split; [|split; [|split; [|split; [|split]]]].
  - apply NoDup_cons. split.
    + intros [J|J]%elem_of_app; [exact (Hni i (or_introl J) eq_refl)|exact (Hni i (or_intror J) eq_refl)].
    + apply NoDup_app. split; [done|]. split; [|done]. intros j J1 J2. eauto.
  - simpl. rewrite app_length. lia.
  - left.
  - intros j [->|[J|J]%elem_of_app]%elem_of_cons.
    + exists l, r, rp. split; [done|]. lia.
    + destruct (A1 _ J) as (a & b & q & HCj & ? & ?). exists a, b, q. split; [done|]. lia.
    + destruct (A2 _ J) as (a & b & q & HCj & ? & ?). exists a, b, q. split; [done|]. lia.
  - intros c [->|[J|J]%elem_of_app]%elem_of_cons Hne; [done| |].
    + destruct (decide (c = c1)) as [->|Hc].
      * exists i. split; [left|]. by left.
      * destruct (P1 c J Hc) as (p & Hp & Hpc). exists p. split; [|done]. right. apply elem_of_app. by left.
    + destruct (decide (c = c2)) as [->|Hc].
      * exists i. split; [left|]. by right.
      * destruct (P2 c J Hc) as (p & Hp & Hpc). exists p. split; [|done]. right. apply elem_of_app. by right.
  - intros p p' c Hp Hp' Hc Hc'.
    apply elem_of_cons in Hp as [Hp|[Hp|Hp]%elem_of_app], Hp' as [Hp'|[Hp'|Hp']%elem_of_app]; subst; try done.
    + destruct (K1 _ _ Hp' Hc') as (? & ? & _). by destruct (Ki _ Hc).
    + destruct (K2 _ _ Hp' Hc') as (? & ? & _). by destruct (Ki _ Hc).
    + destruct (K1 _ _ Hp Hc) as (? & ? & _). by destruct (Ki _ Hc').
    + eapply U1; eauto.
    + destruct (K1 _ _ Hp Hc) as (_ & _ & a & b & q & HCc & ? & ?), (K2 _ _ Hp' Hc') as (_ & _ & a' & b' & q' & HCc' & ? & ?).
      destruct (Covers_det _ _ _ _ _ HCc _ _ _ HCc') as (-> & -> & _). pose proof (Covers_range le vol perm T VT _ _ _ _ HCc). lia.
    + destruct (K2 _ _ Hp Hc) as (? & ? & _). by destruct (Ki _ Hc').
    + destruct (K2 _ _ Hp Hc) as (_ & _ & a & b & q & HCc & ? & ?), (K1 _ _ Hp' Hc') as (_ & _ & a' & b' & q' & HCc' & ? & ?).
      destruct (Covers_det _ _ _ _ _ HCc _ _ _ HCc') as (-> & -> & _). pose proof (Covers_range le vol perm T VT _ _ _ _ HCc). lia.
    + eapply U2; eauto.
Qed.

Hypothesis n2 : 2 <= length perm.
Notation n := (length perm).

Lemma covers_bound i l r rp : Covers T i l r rp -> i < 2 * n - 1.
Proof.
  intros H. pose proof (vt_size _ _ _ _ VT) as Hz. pose proof (vt_nodes _ _ _ _ VT) as Hn.
  destruct H as [i rp nd Hi _ _|i l s r rp c2 nd Hi Hnd _ _ _ _]; [lia|]. apply lookup_lt_Some in Hnd. lia.
Qed.

Lemma all_nodes : exists L, NoDup L /\ (forall j, j ∈ L <-> j < 2 * n - 1) /\
  (forall c, c ∈ L -> c <> n -> exists p, p ∈ L /\ Child T p c) /\
  (forall p p' c, p ∈ L -> p' ∈ L -> Child T p c -> Child T p' c -> p = p').
Proof.
  destruct (covers_nodes _ _ _ _ (vt_root _ _ _ _ VT)) as (L & ND & HL & _ & HA & HP & HU).
  assert (getRoot T = n) as HR by (unfold getRoot; apply (vt_size _ _ _ _ VT)). rewrite HR in HP.
  exists L. split; [done|]. split; [|split; [done|done]].
  assert (L ≡ₚ seq 0 (2 * n - 1)) as HPm.
  { apply submseteq_Permutation_length_le; [rewrite seq_length; lia|].
    apply NoDup_submseteq; [done|]. intros j Hj. destruct (HA j Hj) as (a & b & q & HC & _).
    apply elem_of_seq. pose proof (covers_bound _ _ _ _ HC). lia. }
  intros j. rewrite HPm, elem_of_seq. lia.
Qed.

Lemma child_lt p c : Child T p c -> p < 2 * n - 1 -> c < 2 * n - 1 /\ c <> n.
Proof.
  intros Hc Hp. destruct (vt_all _ _ _ _ VT p Hp) as (l & r & rp & HC).
  destruct (child_range _ _ _ _ _ HC Hc) as (l' & r' & rp' & HCc & ? & ? & ?).
  split; [by eapply covers_bound|]. intros ->.
  assert (getRoot T = n) as HR by (unfold getRoot; apply (vt_size _ _ _ _ VT)).
  pose proof (vt_root _ _ _ _ VT) as HRt. rewrite HR in HRt.
  destruct (Covers_det _ _ _ _ _ HCc _ _ _ HRt) as (-> & -> & _).
  pose proof (Covers_range le vol perm T VT _ _ _ _ HC). lia.
Qed.

Lemma child_unique p p' c : p < 2 * n - 1 -> p' < 2 * n - 1 -> Child T p c -> Child T p' c -> p = p'.
Proof. destruct all_nodes as (L & _ & HL & _ & HU). intros Hp Hp'. apply HL in Hp, Hp'. by apply HU. Qed.

Lemma child_exists c : c < 2 * n - 1 -> c <> n -> exists p, n <= p < 2 * n - 1 /\ Child T p c.
Proof.
  destruct all_nodes as (L & _ & HL & HP & _). intros Hc Hne. destruct (HP c) as (p & Hp & Hpc); [by apply HL|done|].
  apply HL in Hp. pose proof (child_node _ _ Hpc). rewrite (vt_size _ _ _ _ VT) in *. exists p. split; [lia|done].
Qed.

Lemma node_children p : n <= p < 2 * n - 1 -> exists a b l s r rp, getLeftChild T p = Some a /\ getRightChild T p = Some (Some b) /\
  Covers T p l r rp /\ l <= s < r /\ Covers T a l s (Some b) /\ Covers T b (S s) r rp.
Proof.
  intros Hp. destruct (vt_all _ _ _ _ VT p) as (l & r & rp & HC); [lia|].
  destruct (node_case le vol perm T VT _ _ _ _ HC) as (s & c1 & c2 & v & Hs & E1 & E2 & _ & _ & _ & H1 & H2).
  { unfold isLeaf. apply Nat.ltb_ge. rewrite (vt_size _ _ _ _ VT). lia. }
  exists c1, c2, l, s, r, rp. auto 10.
Qed.

(** findParents *)
Lemma findParents_ok order par0 : order ≡ₚ seq 0 (2 * (n - 1)) -> length par0 = 2 * n - 1 ->
  exists par, findParents T order par0 = Some par /\ length par = 2 * n - 1 /\
    (forall p c, p < 2 * n - 1 -> Child T p c -> par !! c = Some p) /\ par !! n = par0 !! n.
Proof.
  intros HO HL. pose proof (vt_size _ _ _ _ VT) as Hz.
  set (dst := fun k => if Nat.even k then getLeftChild T (n + k / 2) else mjoin (getRightChild T (n + k / 2))).
  assert (forall k, k ∈ order -> k < 2 * (n - 1)) as Hk. { intros k. rewrite HO, elem_of_seq. lia. }
  assert (forall k d, dst k = Some d -> Child T (n + k / 2) d) as Hd.
  { intros k d. unfold dst, Child. destruct (Nat.even k); [by left|].
    destruct (getRightChild T (n + k / 2)) as [[x|]|]; simpl; try done. intros [= ->]. by right. }
  assert (forall k, k < 2 * (n - 1) -> n <= n + k / 2 < 2 * n - 1) as Hb.
  { intros k H. assert (k / 2 < n - 1) by (apply Nat.div_lt_upper_bound; lia). lia. }
  destruct (par_writes_correct dst (fun k => Some (n + k / 2)) order par0) as (par & E & Lp & W & Fr).
  - rewrite HO. apply NoDup_seq.
  - intros k Hin. pose proof (Hk _ Hin) as Hlt. pose proof (Hb k Hlt) as Hn.
    destruct (node_children _ Hn) as (a & b & l & s & r & rp & E1 & E2 & _).
    assert (exists d, dst k = Some d) as [d Ed].
    { unfold dst. destruct (Nat.even k); [eauto|]. rewrite E2. simpl. eauto. }
    exists d, (n + k / 2). split; [done|]. split; [done|]. rewrite HL. eapply (child_lt (n + k / 2)); [by apply Hd|lia].
  - intros i j d Hi Hj Ei Ej. apply Hk in Hi, Hj. pose proof (Hb _ Hi) as Bi. pose proof (Hb _ Hj) as Bj.
    pose proof (Hd _ _ Ei) as Ci. pose proof (Hd _ _ Ej) as Cj.
    assert (i / 2 = j / 2) as Eq. { pose proof (child_unique (n + i / 2) (n + j / 2) d (proj2 Bi) (proj2 Bj) Ci Cj). lia. }
    destruct (node_children _ Bi) as (a & b & l & s & r & rp & E1 & E2 & _ & Hs & Ca & Cb).
    assert (a <> b) as Hab. { intros ->. destruct (Covers_det _ _ _ _ _ Ca _ _ _ Cb) as (? & _). lia. }
    unfold dst in Ei, Ej. rewrite <- Eq in Ej. rewrite E1, E2 in Ei, Ej. simpl in Ei, Ej.
    destruct (Nat.even i) eqn:Pi, (Nat.even j) eqn:Pj; try congruence.
    + apply Nat.even_spec in Pi as [x ->], Pj as [y ->]. clear - Eq.
      rewrite !(Nat.mul_comm 2), !Nat.div_mul in Eq by done. by subst.
    + assert (Nat.odd i = true) as Oi by (by rewrite <- Nat.negb_even, Pi). assert (Nat.odd j = true) as Oj by (by rewrite <- Nat.negb_even, Pj).
      apply Nat.odd_spec in Oi as [x ->], Oj as [y ->]. clear - Eq.
      replace (2 * x + 1) with (1 + x * 2) in Eq by lia. replace (2 * y + 1) with (1 + y * 2) in Eq by lia.
      rewrite !Nat.div_add in Eq by done. change (1 / 2) with 0 in Eq. simpl in Eq. by subst.
  - exists par. unfold findParents. rewrite Hz. destruct (Nat.leb_spec 2 n); [|lia]. rewrite HL, Nat.eqb_refl. simpl.
    split; [exact E|]. split; [lia|]. split.
    + intros p c Hp Hc. pose proof (child_node _ _ Hc) as Hge. rewrite Hz in Hge.
      set (k := 2 * (p - n) + (if decide (getLeftChild T p = Some c) then 0 else 1)).
      assert (k / 2 = p - n) as Ek.
      { unfold k. destruct (decide (getLeftChild T p = Some c)) as [El|El].
        - rewrite Nat.add_0_r, Nat.mul_comm, Nat.div_mul by lia. done.
        - replace (2 * (p - n) + 1) with (1 + (p - n) * 2) by lia. rewrite Nat.div_add by lia. done. }
      assert (k ∈ order) as Hin.
      { rewrite HO. apply elem_of_seq. unfold k. destruct (decide (getLeftChild T p = Some c)) as [El|El]; lia. }
      rewrite (W k c Hin).
      * rewrite Ek. f_equal. lia.
      * unfold dst. rewrite Ek. replace (n + (p - n)) with p by lia. unfold k.
        destruct (decide (getLeftChild T p = Some c)) as [El|El].
        -- rewrite Nat.add_0_r. replace (Nat.even (2 * (p - n))) with true; [done|]. symmetry. apply Nat.even_spec. by exists (p - n).
        -- replace (Nat.even (2 * (p - n) + 1)) with false.
           ++ destruct Hc as [?|Hc]; [done|]. by rewrite Hc.
           ++ symmetry. rewrite <- Nat.negb_odd. apply negb_false_iff. apply Nat.odd_spec. by exists (p - n).
    + apply Fr. intros k Hin Hdk. apply Hk in Hin. pose proof (Hb _ Hin).
      apply Hd in Hdk. destruct (child_lt _ _ Hdk) as [_ ?]; [lia|done].
Qed.

(** range of leaves below a node, computed *)
Fixpoint rng (fuel i : nat) : option (nat * nat) :=
  match fuel with
  | O => None
  | S fuel =>
    if isLeaf T i then Some (i, i)
    else match getLeftChild T i, mjoin (getRightChild T i) with
         | Some a, Some b => x ← rng fuel a; y ← rng fuel b; Some (fst x, snd y)
         | _, _ => None
         end
  end.
Lemma rng_ok fuel : forall i l r rp, Covers T i l r rp -> r - l < fuel -> rng fuel i = Some (l, r).
Proof.
  induction fuel as [|fuel IH]; intros i l r rp HC Hf; [lia|]. cbn [rng].
  destruct (isLeaf T i) eqn:E.
  - by destruct (leaf_case le vol perm T VT _ _ _ _ HC E) as (-> & -> & _).
  - destruct (node_case le vol perm T VT _ _ _ _ HC E) as (s & c1 & c2 & v & Hs & E1 & E2 & _ & _ & _ & H1 & H2).
    pose proof (Covers_range le vol perm T VT _ _ _ _ H1). pose proof (Covers_range le vol perm T VT _ _ _ _ H2).
    rewrite E1, E2. simpl. rewrite (IH _ _ _ _ H1) by lia. rewrite (IH _ _ _ _ H2) by lia. done.
Qed.
Definition rg (i : nat) : nat * nat := default (0, 0) (rng n i).
Lemma rg_ok i l r rp : Covers T i l r rp -> rg i = (l, r).
Proof.
  intros HC. unfold rg. pose proof (Covers_range le vol perm T VT _ _ _ _ HC). by rewrite (rng_ok n i l r rp HC) by lia.
Qed.
End Tree.

(** ** What the label of a range of leaves must be *)
Section Uni.
Variable labels0 : list Z.
Definition Uniform (l r : nat) (L : Z) : Prop := forall k, l <= k <= r -> labels0 !! k = Some L.
Definition uni (l r : nat) : Z :=
  if forallb (fun k => bool_decide (labels0 !! k = labels0 !! l)) (seq l (S r - l)) then default indeterminate (labels0 !! l) else indeterminate.
Variable n : nat.
Hypothesis HL : forall k, k < n -> exists L, labels0 !! k = Some L /\ L <> indeterminate.
Lemma uni_spec l r : l <= r < n -> (Uniform l r (uni l r) /\ uni l r <> indeterminate) \/ (uni l r = indeterminate /\ forall L, ~ Uniform l r L).
Proof.
  intros Hr. unfold uni. destruct (HL l) as (L & EL & HLn); [lia|].
  destruct (forallb _ _) eqn:E.
  - left. rewrite EL. simpl. split; [|done]. intros k Hk. rewrite forallb_forall in E.
    specialize (E k). rewrite <- elem_of_list_In, elem_of_seq in E. specialize (E ltac:(lia)).
    apply bool_decide_eq_true in E. congruence.
  - right. split; [done|]. intros M HM. apply not_true_iff_false in E. apply E. apply forallb_forall.
    intros k. rewrite <- elem_of_list_In, elem_of_seq. intros Hk. apply bool_decide_eq_true.
    rewrite (HM k) by lia. rewrite (HM l) by lia. done.
Qed.
Lemma uni_split l s r : l <= s < r -> r < n -> uni l r = if decide (uni l s = uni (S s) r) then uni l s else indeterminate.
Proof.
  intros Hs Hr. destruct (uni_spec l s) as [[U1 N1]|[E1 N1]]; [lia| |];
  destruct (uni_spec (S s) r) as [[U2 N2]|[E2 N2]]; try lia;
  destruct (uni_spec l r) as [[U N]|[E N]]; try lia.
  - pose proof (U l ltac:(lia)) as A. pose proof (U (S s) ltac:(lia)) as B.
    rewrite (U1 l ltac:(lia)) in A. rewrite (U2 (S s) ltac:(lia)) in B. injection A as A. injection B as B.
    rewrite A, B. by destruct (decide (uni l r = uni l r)).
  - destruct (decide (uni l s = uni (S s) r)) as [Eq|]; [|done]. exfalso. apply (N (uni l s)).
    intros k Hk. destruct (decide (k <= s)); [apply U1; lia|]. rewrite Eq. apply U2; lia.
  - exfalso. apply (N2 (uni l r)). intros k Hk. apply U. lia.
  - destruct (decide (uni l s = uni (S s) r)) as [Eq|]; [|done]. congruence.
  - exfalso. apply (N1 (uni l r)). intros k Hk. apply U. lia.
  - destruct (decide (uni l s = uni (S s) r)) as [Eq|]; congruence.
  - exfalso. apply (N1 (uni l r)). intros k Hk. apply U. lia.
  - destruct (decide (uni l s = uni (S s) r)) as [Eq|]; congruence.
Qed.
End Uni.

Lemma lab_ex (n : nat) (labels0 : list Z) (HLen : length labels0 = 2 * n - 1)
  (HLab : forall k L, k < n -> labels0 !! k = Some L -> L <> indeterminate /\ L <> untouched) k :
  k < n -> exists L, labels0 !! k = Some L /\ L <> indeterminate.
Proof.
  intros Hk. destruct (lookup_lt_is_Some_2 labels0 k) as [L E]; [lia|]. exists L. split; [done|]. by destruct (HLab k L Hk E).
Qed.

(** ** Both kernels together *)
Section Both.
Context {V : Type} (le : V -> V -> Prop) (vol : nat -> V) (perm : list nat) (T : tree V).
Hypothesis VT : ValidTree le vol perm T.
Hypothesis n2 : 2 <= length perm.
Notation n := (length perm).
Variable parents : list nat.
Hypothesis HP : forall p c, p < 2 * n - 1 -> Child T p c -> parents !! c = Some p.
Variable labels0 : list Z.
Hypothesis HLen : length labels0 = 2 * n - 1.
Hypothesis HLab : forall k L, k < n -> labels0 !! k = Some L -> L <> indeterminate /\ L <> untouched.

Definition Ff (i : nat) : Z := let x := rg perm T i in uni labels0 (fst x) (snd x).
Definition Wf (i : nat) : nat := let x := rg perm T i in snd x - fst x + 1.
Definition Sibf (p a b : nat) : Prop := n <= p < 2 * n - 1 /\ TSib T p a b.

Lemma reduce_ok ts s : execg (lstep n parents) (linit n labels0) ts s ->
  length ts <= n * (3 * n) /\
  (forall t p, ls_pcs s !! t = Some p -> p <> LDone -> exists s', lstep n parents s t = Some s') /\
  (lall_done s -> forall i l r rp, Covers T i l r rp -> ls_labels s !! i = Some (uni labels0 l r)).
Proof.
  intros He.
  assert (H1 : forall p a b, Sibf p a b -> Sibf p b a) by (intros p a b [? [?|?]]; split; unfold TSib; auto).
  assert (H2 : forall p a b, Sibf p a b -> n <= p < 2 * n - 1) by (by intros p a b [? _]).
  assert (HC : forall p a b, Sibf p a b -> Child T p a) by (intros p a b [_ [[? ?]|[? ?]]]; [by left|by right]).
  assert (HR : forall p a b, Sibf p a b -> exists l s r q q1 q2, l <= s < r /\ r < n /\ rg perm T p = (l, r) /\
     ((rg perm T a = (l, s) /\ rg perm T b = (S s, r)) \/ (rg perm T b = (l, s) /\ rg perm T a = (S s, r))) /\
     Covers T p l r q /\ Covers T a (fst (rg perm T a)) (snd (rg perm T a)) q1 /\ Covers T b (fst (rg perm T b)) (snd (rg perm T b)) q2).
  { intros p a b [Hp HS]. destruct (node_children le vol perm T VT n2 p Hp) as (x & y & l & u & r & rp & E1 & E2 & C & Hs & Cx & Cy).
    pose proof (Covers_range le vol perm T VT _ _ _ _ C).
    pose proof (rg_ok le vol perm T VT n2 _ _ _ _ C) as Rp. pose proof (rg_ok le vol perm T VT n2 _ _ _ _ Cx) as Rx.
    pose proof (rg_ok le vol perm T VT n2 _ _ _ _ Cy) as Ry.
    destruct HS as [[A B]|[A B]].
    - assert (a = x) by congruence. assert (b = y) by congruence. subst.
      exists l, u, r, rp, (Some y), rp. rewrite Rx, Ry. simpl. split; [done|]. split; [lia|]. split; [done|]. split; [by left|]. done.
    - assert (a = y) by congruence. assert (b = x) by congruence. subst.
      exists l, u, r, rp, rp, (Some y). rewrite Rx, Ry. simpl. split; [done|]. split; [lia|]. split; [done|]. split; [by right|]. done. }
  assert (H3 : forall p a b, Sibf p a b -> a < 2 * n - 1 /\ a <> n /\ a <> b).
  { intros p a b HS. pose proof (HC _ _ _ HS) as Hc. pose proof (H2 _ _ _ HS).
    destruct (child_lt le vol perm T VT n2 p a Hc) as [? ?]; [lia|]. split; [done|]. split; [done|].
    intros ->. destruct (HR _ _ _ HS) as (l & u & r & q & q1 & q2 & ? & ? & _ & [[A B]|[A B]] & _); rewrite A in B; injection B; lia. }
  assert (H4 : forall p a b, Sibf p a b -> parents !! a = Some p).
  { intros p a b HS. pose proof (H2 _ _ _ HS). apply HP; [lia|eauto]. }
  assert (H5 : forall p a b, Sibf p a b -> Wf a < Wf p).
  { intros p a b HS. unfold Wf. destruct (HR _ _ _ HS) as (l & u & r & q & q1 & q2 & ? & ? & Rp & [[A B]|[A B]] & _);
    rewrite Rp, ?A, ?B; simpl; lia. }
  assert (H6 : forall p a b, Sibf p a b -> Ff p = if decide (Ff a = Ff b) then Ff a else indeterminate).
  { intros p a b HS. unfold Ff. destruct (HR _ _ _ HS) as (l & u & r & q & q1 & q2 & ? & ? & Rp & [[A B]|[A B]] & _).
    - rewrite Rp, A, B. simpl. apply (uni_split labels0 n (lab_ex n labels0 HLen HLab)); lia.
    - rewrite Rp, A, B. simpl. rewrite (uni_split labels0 n (lab_ex n labels0 HLen HLab) l u r) by lia.
      destruct (decide (uni labels0 l u = uni labels0 (S u) r)) as [E|E], (decide (uni labels0 (S u) r = uni labels0 l u)); congruence. }
  assert (H7 : forall c, c < 2 * n - 1 -> c <> n -> exists p b, Sibf p c b).
  { intros c Hc Hne. destruct (child_exists le vol perm T VT n2 c Hc Hne) as (p & Hp & Hpc).
    destruct (node_children le vol perm T VT n2 p Hp) as (x & y & l & u & r & rp & E1 & E2 & _).
    exists p. destruct Hpc as [E|E].
    - exists y. split; [done|]. left. done.
    - exists x. split; [done|]. right. done. }
  assert (H8 : forall p, n <= p < 2 * n - 1 -> exists a b, Sibf p a b).
  { intros p Hp. destruct (node_children le vol perm T VT n2 p Hp) as (x & y & l & u & r & rp & E1 & E2 & _).
    exists x, y. split; [done|]. by left. }
  assert (H9 : forall p a b c d, Sibf p a b -> Sibf p c d -> c = a \/ c = b).
  { intros p a b c d [_ [[A B]|[A B]]] [_ [[A' B']|[A' B']]]; rewrite A in A'; rewrite B in B'; injection A' as ->; injection B' as ->; auto. }
  assert (HA : forall i, i < 2 * n - 1 -> exists l r rp, Covers T i l r rp /\ rg perm T i = (l, r) /\ l <= r < n).
  { intros i Hi. destruct (vt_all _ _ _ _ VT i Hi) as (l & r & rp & C). exists l, r, rp. split; [done|].
    split; [exact (rg_ok le vol perm T VT n2 _ _ _ _ C)|]. exact (Covers_range le vol perm T VT _ _ _ _ C). }
  assert (H10 : forall i, i < 2 * n - 1 -> Wf i <= n).
  { intros i Hi. destruct (HA i Hi) as (l & r & rp & _ & E & ?). unfold Wf. rewrite E. simpl. lia. }
  assert (HLf : forall i, i < n -> rg perm T i = (i, i)).
  { intros i Hi. destruct (HA i) as (l & r & rp & C & E & ?); [lia|]. rewrite E.
    destruct (leaf_case le vol perm T VT _ _ _ _ C) as (-> & -> & _); [|done].
    unfold isLeaf. apply Nat.ltb_lt. by rewrite (vt_size _ _ _ _ VT). }
  assert (HLF : forall i, i < n -> labels0 !! i = Some (Ff i)).
  { intros i Hi. unfold Ff. rewrite HLf by done. simpl.
    destruct (lab_ex n labels0 HLen HLab i Hi) as (L & EL & NL). rewrite EL. unfold uni. rewrite EL. simpl.
    destruct (forallb _ _) eqn:E; [done|]. apply not_true_iff_false in E. destruct E. apply forallb_forall.
    intros k. rewrite <- elem_of_list_In, elem_of_seq. intros Hk. assert (k = i) as -> by lia. rewrite EL. by apply bool_decide_eq_true. }
  assert (H11 : forall i, i < n -> Ff i <> untouched).
  { intros i Hi. by destruct (HLab i _ Hi (HLF i Hi)). }
  assert (HI0 : exists arr, LInv n Sibf Ff (linit n labels0) arr).
  { exists (fun _ => false). apply (init_LInv n parents Sibf Ff Wf); auto. }
  destruct (lexec_inv n parents Sibf Ff Wf n2 H1 H2 H3 H4 H5 H6 H7 H8 H9 H10 H11 _ _ _ HI0 He) as [HI Hpot].
  split; [|split].
  - rewrite (lpot_init n Wf) in Hpot; [lia|]. intros i Hi. unfold Wf. rewrite HLf by done. simpl. lia.
  - intros t p Ht Hne. destruct (lany_step n parents Sibf Ff Wf n2 H1 H2 H3 H4 H5 H6 H7 H8 H9 H10 H11 s t p HI Ht Hne) as (s' & E & _). eauto.
  - intros HD i l r rp C. destruct HI as [arr HI].
    rewrite (ldone_final n parents Sibf Ff Wf n2 H1 H2 H3 H4 H5 H6 H7 H8 H9 H10 H11 s arr HI HD i) by (by eapply covers_bound).
    unfold Ff. by rewrite (rg_ok le vol perm T VT n2 _ _ _ _ C).
Qed.
End Both.
