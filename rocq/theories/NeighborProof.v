(** Proofs about NeighborModel. *)
From Verif Require Import Base CrsModel CrsSpec CrsProof NeighborModel.

Section Passes.
Implicit Type progs : list (list (nat * nat)).

Lemma count_pass {A} (progs : list (list (nat * A))) N ts :
  (forall i v, (i, v) ∈ concat progs -> i < N) ->
  exists s, prun slot_count ts (pinit (replicate N 0) [] progs) = Some s /\
    (pfinished s = true -> p_counts s = map (fun i => length (sel i (concat progs))) (seq 0 N)).
Proof.
  intros Hk.
  destruct (pass_ok slot_count (fun _ _ => None) (replicate N 0) [] progs) with (ts := ts) as (s&E&H).
  { intros i v Hi. rewrite replicate_length. eauto. }
  { done. }
  { done. }
  exists s. split; [done|]. intros Hf. destruct (H Hf) as (tr&Hl&Hc&_). rewrite replicate_length in Hl.
  apply list_eq. intros i. change (map ?f ?l) with (f <$> l). rewrite list_lookup_fmap.
  destruct (Nat.lt_ge_cases i N) as [Hi|Hi].
  - rewrite (Hc i 0) by (by apply lookup_replicate_2). rewrite lookup_seq_lt by done. done.
  - rewrite lookup_ge_None_2 by lia. rewrite lookup_seq_ge by done. done.
Qed.

(** What a pass that appends at per-key positions achieves. *)
Definition Filled (w counts0 : list nat) (E : list (nat * nat)) (out0 : list (option nat)) (counts : list nat) (out : list (option nat)) : Prop :=
  length counts = length counts0 /\ length out = length out0 /\
  (forall i b, counts0 !! i = Some b -> counts !! i = Some (b + length (sel i E))) /\
  (exists Lf, (forall i, Lf i ≡ₚ sel i E) /\
     forall i b p v, counts0 !! i = Some b -> Lf i !! p = Some v -> out !! (b + p) = Some (Some v)) /\
  (forall d, (forall i b p, counts0 !! i = Some b -> p < length (sel i E) -> d <> b + p) -> out !! d = out0 !! d).

Definition Room (w counts0 : list nat) (E : list (nat * nat)) (out0 : list (option nat)) : Prop :=
  (forall i v, (i, v) ∈ E -> i < length counts0) /\
  (forall i b, counts0 !! i = Some b -> 0 < length (sel i E) -> exists wi c, w !! i = Some wi /\
     b = sum_list (take i w) + c /\ c + length (sel i E) <= wi) /\
  sum_list w <= length out0.

Section Fill.
Variables (w counts0 : list nat) (out0 : list (option nat)) (progs : list (list (nat * nat))).
Hypothesis HR : Room w counts0 (concat progs) out0.
Definition slf (i p : nat) : option nat := match counts0 !! i with Some b => Some (b + p) | None => None end.

Lemma fill_slot i base p : counts0 !! i = Some base -> p < length (sel i (concat progs)) ->
  slot_second i (base + p) = Some (slf i p) /\ (forall d, slf i p = Some d -> d < length out0).
Proof.
  intros Hb Hp. unfold slot_second, slf. rewrite Hb. split; [done|]. intros d [= <-].
  destruct HR as (_&H&Hs). destruct (H i base Hb) as (wi&c&Hw&->&Hle); [lia|].
  pose proof (layout_lt w i (c + p) wi Hw). lia.
Qed.
Lemma fill_inj i j p q d : i < length counts0 -> j < length counts0 ->
  p < length (sel i (concat progs)) -> q < length (sel j (concat progs)) ->
  slf i p = Some d -> slf j q = Some d -> i = j /\ p = q.
Proof.
  intros Hi Hj Hp Hq. unfold slf.
  destruct (lookup_lt_is_Some_2 _ _ Hi) as [bi Hbi]. destruct (lookup_lt_is_Some_2 _ _ Hj) as [bj Hbj].
  rewrite Hbi, Hbj. intros E1 E2. injection E1 as E1. injection E2 as E2. destruct HR as (_&H&_).
  destruct (H i bi Hbi) as (wi&ci&Hwi&->&Hlei); [lia|]. destruct (H j bj Hbj) as (wj&cj&Hwj&->&Hlej); [lia|].
  destruct (layout_inj w i j (ci + p) (cj + q) wi wj) as [-> Hpq]; auto; try lia.
  assert (ci = cj); [|lia]. rewrite Hbi in Hbj. injection Hbj as Hbj. lia.
Qed.

Lemma filled_of_done s : PassDone slf counts0 out0 progs s -> Filled w counts0 (concat progs) out0 (p_counts s) (p_out s).
Proof.
  intros (tr&Hlc&Hc&Hlo&Htr&_&_&Hd&Hf). split; [done|]. split; [done|]. split; [done|]. split.
  - exists (fun i => sel i (snd <$> tr)). split; [intros i; by apply sel_perm|].
    intros i b p v Hb Hv. eapply Hd; [exact Hv|]. unfold slf. by rewrite Hb.
  - intros d H. apply Hf. intros i p Hi Hp. unfold slf. destruct (counts0 !! i) as [b|] eqn:Eb; [|done].
    intros [= E]. eapply H; eauto.
Qed.

Lemma fill_pass ts : exists s, prun slot_second ts (pinit counts0 out0 progs) = Some s /\
  (pfinished s = true -> Filled w counts0 (concat progs) out0 (p_counts s) (p_out s)).
Proof.
  destruct (pass_ok slot_second slf counts0 out0 progs) with (ts := ts) as (s&E&H).
  { intros i v. apply HR. }
  { intros. by apply fill_slot. }
  { intros i j p q d. apply fill_inj. }
  exists s. split; [done|]. intros Hf. apply filled_of_done. auto.
Qed.

(** The copy kernel, whose threads read their key from the same array. *)
Definition trel (c : cthread) (th : list (nat * nat) * option (nat * nat)) : Prop :=
  match c with
  | ToRead r i => exists k, out0 !! r = Some (Some k) /\ th = ([(k, i)], None) /\
      forall j p, j < length counts0 -> p < length (sel j (concat progs)) -> slf j p <> Some r
  | ToInc k i => th = ([(k, i)], None)
  | ToWrite d i => th = ([], Some (d, i))
  | CDone => th = ([], None)
  end.
Definition csim (c : cstate) (s : pstate nat) : Prop :=
  c_counts c = p_counts s /\ c_ind c = p_out s /\ Forall2 trel (c_thr c) (p_thr s).

Lemma cstep_sim c s tr t : csim c s -> PInv slf counts0 out0 progs s tr ->
  exists c' s' tr', cstep c t = Some c' /\ csim c' s' /\ PInv slf counts0 out0 progs s' tr'.
Proof.
  intros (Ec&Ei&HF) I. unfold cstep.
  destruct (c_thr c !! t) as [ct|] eqn:Et.
  2:{ exists c, s, tr. split; [done|]. split; [done|done]. }
  destruct (Forall2_lookup_l _ _ _ _ _ HF Et) as (th&Hth&Hrel).
  destruct ct as [r i|k i|d i|].
  - destruct Hrel as (k&Hk&->&Hfr). rewrite Ei, (pi_frame _ _ _ _ _ _ I r Hfr), Hk. simplo.
    eexists _, s, tr. split; [reflexivity|]. split; [|done]. split; [done|]. split; [done|].
    cbn [c_thr]. rewrite <- (list_insert_id _ _ _ Hth). apply Forall2_insert; done.
  - simpl in Hrel. subst th.
    destruct (pstep_inv slot_second slf counts0 out0 progs) with (s := s) (tr := tr) (t := t) as (s'&tr'&Es&I'); auto.
    { intros j v. apply HR. } { intros. by apply fill_slot. } { intros. by eapply fill_inj. }
    unfold pstep in Es. rewrite Hth in Es. rewrite Ec.
    destruct (p_counts s !! k) as [old|] eqn:Ek; [|done]. cbn in Es. injection Es as <-. simplo.
    eexists _, _, tr'. split; [reflexivity|]. split; [|exact I'].
    split; [done|]. split; [done|]. cbn [c_thr p_thr]. apply Forall2_insert; done.
  - simpl in Hrel. subst th.
    destruct (pstep_inv slot_second slf counts0 out0 progs) with (s := s) (tr := tr) (t := t) as (s'&tr'&Es&I'); auto.
    { intros j v. apply HR. } { intros. by apply fill_slot. } { intros. by eapply fill_inj. }
    unfold pstep in Es. rewrite Hth in Es. rewrite Ei.
    destruct (wr (p_out s) d (Some i)) as [o|] eqn:Ew; [|done]. cbn in Es. injection Es as <-. simplo.
    eexists _, _, tr'. split; [reflexivity|]. split; [|exact I'].
    split; [done|]. split; [done|]. cbn [c_thr p_thr]. apply Forall2_insert; done.
  - exists c, s, tr. done.
Qed.

Lemma crun_sim ts : forall c s tr, csim c s -> PInv slf counts0 out0 progs s tr ->
  exists c' s' tr', crun ts c = Some c' /\ csim c' s' /\ PInv slf counts0 out0 progs s' tr'.
Proof.
  induction ts as [|t ts IH]; intros c s tr HS I; [by exists c, s, tr|].
  cbn [crun]. destruct (cstep_sim c s tr t HS I) as (c1&s1&tr1&->&HS1&I1). simplo. eauto.
Qed.

Lemma copy_pass ts thr : Forall2 trel thr (map (fun p => (p, None)) progs) ->
  exists c, crun ts (CState counts0 out0 thr) = Some c /\
  (cfinished c = true -> Filled w counts0 (concat progs) out0 (c_counts c) (c_ind c)).
Proof.
  intros HF. destruct (crun_sim ts (CState counts0 out0 thr) (pinit counts0 out0 progs) []) as (c&s&tr&E&HS&I).
  { done. }
  { apply pinit_inv. }
  exists c. split; [done|]. intros Hfin. destruct HS as (Ec&Ei&HF'). rewrite Ec, Ei. apply filled_of_done.
  eapply pass_done; [exact I|]. unfold pfinished. apply forallb_forall. intros th Hin.
  apply elem_of_list_In, elem_of_list_lookup in Hin as [t Ht].
  destruct (Forall2_lookup_r _ _ _ _ _ HF' Ht) as (ct&Hct&Hrel).
  unfold cfinished in Hfin. rewrite forallb_forall in Hfin.
  specialize (Hfin ct). destruct ct; try (exfalso; assert (false = true); [apply Hfin; apply elem_of_list_In; by eapply elem_of_list_lookup_2|done]).
  simpl in Hrel. by subst th.
Qed.
End Fill.
End Passes.

Notation swap := (fun p : nat * nat => (snd p, fst p)).
Definition widths (f : nat -> nat) (n : nat) : list nat := map f (seq 0 n).

Lemma widths_lookup f n i : i < n -> widths f n !! i = Some (f i).
Proof. intros. unfold widths. change (map ?g ?l) with (g <$> l). rewrite list_lookup_fmap, lookup_seq_lt by done. done. Qed.
Lemma widths_length f n : length (widths f n) = n.
Proof. unfold widths. by rewrite map_length, seq_length. Qed.
Lemma widths_take f n q : q <= n -> take q (widths f n) = widths f q.
Proof.
  intros H. apply list_eq. intros i. destruct (Nat.lt_ge_cases i q).
  - rewrite lookup_take, !widths_lookup by lia. done.
  - rewrite lookup_take_ge by done. rewrite lookup_ge_None_2; [done|]. by rewrite widths_length.
Qed.
Lemma scan_offsets f n q : q <= n ->
  excl_scan 0 (widths f (n + 1)) !! q = Some (sum_list (take q (widths f n))).
Proof.
  intros. rewrite excl_scan_lookup by (rewrite widths_length; lia). rewrite !widths_take by lia. done.
Qed.
Lemma scan_last f n : list.last (excl_scan 0 (widths f (n + 1))) = Some (sum_list (widths f n)).
Proof.
  rewrite last_lookup, excl_scan_length, widths_length. replace (Nat.pred (n + 1)) with n by lia.
  rewrite scan_offsets by done. rewrite take_ge; [done|]. by rewrite widths_length.
Qed.

Lemma sel_elem_iff {A} k v (E : list (nat * A)) : v ∈ sel k E <-> (k, v) ∈ E.
Proof.
  induction E as [|[j w] E IH]; simpl.
  - split; intros H; by apply elem_of_nil in H.
  - rewrite elem_of_cons. destruct (Nat.eqb_spec k j) as [->|Hne].
    + rewrite elem_of_cons, IH. naive_solver.
    + rewrite IH. naive_solver.
Qed.
Lemma sel_none {A} k (E : list (nat * A)) : (forall v, (k, v) ∈ E -> False) -> sel k E = [].
Proof.
  intros H. destruct (sel k E) as [|v l] eqn:Es; [done|]. exfalso. apply (H v). apply sel_elem_iff. rewrite Es. left.
Qed.

(** Regrouping events by key. *)
Lemma regroup_seq {A} (E : list (nat * A)) a n : 
  (forall k v, (k, v) ∈ E -> a <= k < a + n) -> concat (map (fun i => pair i <$> sel i E) (seq a n)) ≡ₚ E.
Proof.
  induction E as [|[k v] E IH]; intros H.
  - clear. generalize a. induction n as [|n IH]; intros b; [done|]. simpl. apply IH.
  - assert (a <= k < a + n) as Hk by (apply (H k v); left).
    transitivity ((k, v) :: concat (map (fun i => pair i <$> sel i E) (seq a n))).
    2:{ f_equiv. apply IH. intros; apply (H k0 v0); by right. }
    replace n with ((k - a) + S (n - (k - a) - 1)) by lia. rewrite seq_app, !map_app, !concat_app.
    replace (a + (k - a)) with k by lia. cbn [seq map concat].
    assert (forall b m, (forall i, b <= i < b + m -> i <> k) ->
       map (fun i => pair i <$> sel i ((k, v) :: E)) (seq b m) = map (fun i => pair i <$> sel i E) (seq b m)) as Hs.
    { intros b m Hb. apply map_ext_in. intros i Hi. apply in_seq in Hi. cbn [sel].
      destruct (Nat.eqb_spec i k); [|done]. exfalso. by apply (Hb i). }
    rewrite !Hs by lia. cbn [sel]. rewrite Nat.eqb_refl. cbn. by rewrite <- Permutation_middle.
Qed.

Lemma concat_half_prog outs : concat (half_prog outs) = map swap (concat outs).
Proof. unfold half_prog. by rewrite concat_map. Qed.

Lemma sel_swap_count k outs : length (sel k (concat (full_count_prog outs))) =
  length (sel k (map swap (concat outs))) + length (sel k (concat outs)).
Proof.
  assert (concat (full_count_prog outs) = flat_map (fun p => [(fst p, 0); (snd p, 0)]) (concat outs)) as ->.
  { unfold full_count_prog. induction outs as [|o outs IH]; [done|]. simpl. rewrite IH, flat_map_app. done. }
  induction (concat outs) as [|[a b] P IH]; [done|]. cbn [flat_map app sel map fst snd].
  destruct (k =? a), (k =? b); simpl; rewrite IH; simpl; lia.
Qed.

Lemma offsets_of (L : list (list nat)) f n : length L = n -> length <$> L = widths f n ->
  IsOffsets L (excl_scan 0 (widths f (n + 1))).
Proof.
  intros Hl Hw. split; [rewrite excl_scan_length, widths_length; lia|]. intros q Hq.
  rewrite scan_offsets by lia. rewrite length_concat_take, Hw. done.
Qed.

Definition Within n (P : list (nat * nat)) : Prop := forall a b, (a, b) ∈ P -> a < n /\ b < n.

(** The answer [L] lists under k what the events say, up to order. *)
Definition ListAnswer (n : nat) (g : nat -> list nat) (out : list (option nat)) (offs : list nat) : Prop :=
  exists L, length L = n /\ (forall k l, L !! k = Some l -> l ≡ₚ g k) /\ IsOffsets L offs /\ out = map Some (concat L).

Lemma list_answer n (g Lf : nat -> list nat) f out :
  (forall k, k < n -> Lf k ≡ₚ g k) -> (forall k, k < n -> f k = length (g k)) ->
  length out = sum_list (widths f n) ->
  (forall k p v, k < n -> Lf k !! p = Some v -> out !! (sum_list (take k (widths f n)) + p) = Some (Some v)) ->
  ListAnswer n g out (excl_scan 0 (widths f (n + 1))).
Proof.
  intros HL Hf Hlen Hout. set (L := map Lf (seq 0 n)).
  assert (length L = n) as HlL by (unfold L; by rewrite map_length, seq_length).
  assert (forall k l, L !! k = Some l -> k < n /\ l = Lf k) as HLk.
  { intros k l H. unfold L in H. change (map ?h ?l) with (h <$> l) in H. rewrite list_lookup_fmap in H.
    destruct (seq 0 n !! k) as [x|] eqn:Ex; [|done]. apply lookup_seq in Ex as [-> ?]. injection H as <-. done. }
  assert (length <$> L = widths f n) as Hw.
  { unfold L, widths. change (map Lf (seq 0 n)) with (Lf <$> seq 0 n). rewrite <- list_fmap_compose.
    apply map_ext_in. intros k Hk. apply in_seq in Hk. unfold compose. rewrite Hf by lia.
    apply Permutation_length. apply HL. lia. }
  exists L. split; [done|]. split; [|split].
  - intros k l H. apply HLk in H as [? ->]. auto.
  - by apply offsets_of.
  - apply array_concat; rewrite Hw; [done|]. intros q l p v Hl Hv. apply HLk in Hl as [? ->]. auto.
Qed.

Lemma half_ok outs n ts1 ts2 : Within n (concat outs) ->
  match findHalfNeighborList outs n ts1 ts2 with
  | UB | Thrown => False | Unfinished => True
  | Done out offs => ListAnswer n (fun k => sel k (map swap (concat outs))) out offs
  end.
Proof.
  intros HW. unfold findHalfNeighborList. set (E := map swap (concat outs)).
  assert (forall k v, (k, v) ∈ E -> k < n) as Hk.
  { intros k v H. apply elem_of_list_fmap in H as ([a b]&[= -> ->]&Hab). apply HW in Hab. lia. }
  destruct (count_pass (half_prog outs) (n + 1) ts1) as (s1&->&H1).
  { rewrite concat_half_prog. intros i v Hi. apply Hk in Hi. lia. }
  cbn [ok]. destruct (pfinished s1); cbn [negb]; [|done]. rewrite (H1 eq_refl). rewrite concat_half_prog. fold E.
  set (f := fun i => length (sel i E)). change (map f (seq 0 (n + 1))) with (widths f (n + 1)).
  rewrite scan_last. cbn [ok].
  set (offs := excl_scan 0 (widths f (n + 1))).
  assert (forall q, q <= n -> offs !! q = Some (sum_list (take q (widths f n)))) as Hoffs by (intros q Hq; exact (scan_offsets f n q Hq)).
  assert (length offs = n + 1) as Hlo by (unfold offs; rewrite excl_scan_length; apply widths_length).
  destruct (fill_pass (widths f n) (take n offs) (replicate (sum_list (widths f n)) None) (half_prog outs)) with (ts := ts2) as (s2&->&H2).
  { rewrite concat_half_prog. fold E. split; [|split].
    - intros i v Hi. apply Hk in Hi. rewrite take_length. lia.
    - intros i b Hb _. assert (i < n) as Hi by (apply lookup_lt_Some in Hb; rewrite take_length in Hb; lia).
      rewrite lookup_take, Hoffs in Hb by lia. injection Hb as <-.
      exists (f i), 0. split; [by apply widths_lookup|]. unfold f. lia.
    - by rewrite replicate_length. }
  cbn [ok]. destruct (pfinished s2); cbn [negb]; [|done]. rewrite concat_half_prog in H2. fold E in H2.
  destruct (H2 eq_refl) as (_&Hl&_&(Lf&HLf&Hout)&_). rewrite replicate_length in Hl.
  apply (list_answer n _ Lf f); auto. intros k p v Hkn Hv. eapply Hout; [|exact Hv].
  rewrite lookup_take by done. apply Hoffs. lia.
Qed.

Lemma Forall2_concat_map {A B C} (R : B -> C -> Prop) (f : A -> list B) (g : A -> list C) l :
  (forall a, a ∈ l -> Forall2 R (f a) (g a)) -> Forall2 R (flat_map f l) (flat_map g l).
Proof.
  induction l as [|a l IH]; intros H; [constructor|]. cbn [flat_map]. apply Forall2_app; [apply H; left|].
  apply IH. intros; apply H; by right.
Qed.

Lemma full_ok outs n ts1 ts2 ts3 : Within n (concat outs) ->
  match findFullNeighborList outs n ts1 ts2 ts3 with
  | UB | Thrown => False | Unfinished => True
  | Done out offs => ListAnswer n (fun k => sel k (map swap (concat outs)) ++ sel k (concat outs)) out offs
  end.
Proof.
  intros HW. unfold findFullNeighborList. set (P := concat outs). set (E := map swap P).
  assert (forall k v, (k, v) ∈ E -> k < n) as Hk.
  { intros k v H. apply elem_of_list_fmap in H as ([a b]&[= -> ->]&Hab). apply HW in Hab. lia. }
  destruct (count_pass (full_count_prog outs) (n + 1) ts1) as (s1&->&H1).
  { intros i v Hi. apply elem_of_list_In, in_concat in Hi as (x&Hx&Hi). unfold full_count_prog in Hx.
    apply in_map_iff in Hx as (o&<-&Ho). apply in_flat_map in Hi as ([a b]&Hab&Hi).
    assert ((a, b) ∈ concat outs) as HP by (apply elem_of_list_In, in_concat; eauto).
    apply HW in HP as [Ha Hb]. cbn [fst snd] in Hi. destruct Hi as [[= <- <-]|[[= <- <-]|[]]]; lia. }
  cbn [ok]. destruct (pfinished s1); cbn [negb]; [|done]. rewrite (H1 eq_refl).
  set (H := fun k => sel k E). set (G := fun k => sel k P).
  set (f := fun i => length (H i) + length (G i)).
  replace (map (fun i => length (sel i (concat (full_count_prog outs)))) (seq 0 (n + 1))) with (widths f (n + 1)).
  2:{ unfold widths. apply map_ext. intros i. rewrite sel_swap_count. done. }
  rewrite scan_last. cbn [ok].
  set (offs := excl_scan 0 (widths f (n + 1))). set (w := widths f n).
  assert (forall q, q <= n -> offs !! q = Some (sum_list (take q w))) as Hoffs by (intros q Hq; exact (scan_offsets f n q Hq)).
  assert (length offs = n + 1) as Hlo by (unfold offs; rewrite excl_scan_length; apply widths_length).
  assert (forall i, i < n -> w !! i = Some (f i)) as Hw by (intros; by apply widths_lookup).
  destruct (fill_pass w (take n offs) (replicate (sum_list w) None) (half_prog outs)) with (ts := ts2) as (s2&->&H2).
  { rewrite concat_half_prog. fold P E. split; [|split].
    - intros i v Hi. apply Hk in Hi. rewrite take_length. lia.
    - intros i b Hb _. assert (i < n) as Hi by (apply lookup_lt_Some in Hb; rewrite take_length in Hb; lia).
      rewrite lookup_take, Hoffs in Hb by lia. injection Hb as <-.
      exists (f i), 0. split; [auto|]. unfold f, H. lia.
    - by rewrite replicate_length. }
  cbn [ok]. destruct (pfinished s2); cbn [negb]; [|done]. rewrite concat_half_prog in H2. fold P E in H2.
  destruct (H2 eq_refl) as (Hlc&Hl&Hcnt&(LH&HLH&Hout)&_). rewrite replicate_length in Hl. rewrite take_length in Hlc.
  set (c2 := p_counts s2) in *. set (o2 := p_out s2) in *.
  assert (forall i, i < n -> c2 !! i = Some (sum_list (take i w) + length (H i))) as Hc2.
  { intros i Hi. apply Hcnt. rewrite lookup_take by done. apply Hoffs. lia. }
  assert (forall i p v, i < n -> LH i !! p = Some v -> o2 !! (sum_list (take i w) + p) = Some (Some v)) as Ho2.
  { intros i p v Hi Hv. eapply Hout; [|exact Hv]. rewrite lookup_take by done. apply Hoffs. lia. }
  assert (forall i, length (LH i) = length (H i)) as HlenH by (intros; apply Permutation_length, HLH).
  (* the copy kernel *)
  set (cprogs := flat_map (fun i => map (fun k => [(k, i)]) (LH i)) (seq 0 n)).
  assert (concat cprogs ≡ₚ P) as HcP.
  { assert (concat cprogs = concat (map (fun i => map (fun k => (k, i)) (LH i)) (seq 0 n))) as ->.
    { unfold cprogs. rewrite flat_map_concat_map. generalize (seq 0 n) as l. clear.
      induction l as [|i l IH]; [done|]. cbn [map concat]. rewrite concat_app, IH. f_equal.
      induction (LH i) as [|x y IHy]; simpl; [done|]. by rewrite IHy. }
    transitivity (map swap (concat (map (fun i => pair i <$> sel i E) (seq 0 n)))).
    - rewrite concat_map, map_map. clear -HLH.
      induction (seq 0 n) as [|i l IH]; [done|]. cbn [map concat]. rewrite IH. f_equiv.
      change (map (λ k, (k, i)) (LH i)) with ((fun k => (k, i)) <$> LH i). rewrite (HLH i).
      change (map swap (pair i <$> sel i E)) with (swap <$> (pair i <$> sel i E)). rewrite <- list_fmap_compose. done.
    - rewrite (regroup_seq E 0 n) by (intros k v Hkv; apply Hk in Hkv; lia).
      unfold E. rewrite map_map. rewrite map_ext with (g := id); [by rewrite map_id|]. by intros [a b]. }
  assert (forall k, sel k (concat cprogs) ≡ₚ G k) as HselG by (intros; by apply sel_perm).
  destruct (copy_pass w c2 o2 cprogs) with (ts := ts3) (thr := copy_items n offs c2) as (c3&->&H3).
  { split; [|split].
    - intros i v Hi. rewrite HcP in Hi. apply HW in Hi. lia.
    - intros i b Hb Hpos. rewrite (Permutation_length (HselG i)) in *. assert (i < n) as Hi by (apply lookup_lt_Some in Hb; lia).
      rewrite Hc2 in Hb by done. injection Hb as <-. exists (f i), (length (H i)). split; [auto|]. unfold f. lia.
    - lia. }
  { assert (map (fun p : list (nat * nat) => (p, @None (nat * nat))) cprogs =
      flat_map (fun x => map (fun p => (p, None)) (map (fun k => [(k, x)]) (LH x))) (seq 0 n)) as ->.
    { unfold cprogs. rewrite !flat_map_concat_map, concat_map, map_map. done. }
    unfold copy_items. apply Forall2_concat_map. intros i Hi. apply elem_of_seq in Hi. rewrite (Hoffs i), (Hc2 i) by lia. cbn [default].
    change (@id nat ?x) with x.
    replace (sum_list (take i w) + length (H i) - sum_list (take i w)) with (length (LH i)) by (rewrite HlenH; lia).
    apply Forall2_same_length_lookup_2; [by rewrite !map_length, seq_length|].
    intros j ct th Hct Hth. change (map ?g (seq 0 ?m)) with (g <$> seq 0 m) in Hct. rewrite list_lookup_fmap in Hct.
    destruct (seq 0 (length (LH i)) !! j) as [j'|] eqn:Ej; [|done]. apply lookup_seq in Ej as [-> Hj]. injection Hct as <-.
    rewrite map_map in Hth. change (map ?g (LH i)) with (g <$> LH i) in Hth. rewrite list_lookup_fmap in Hth.
    destruct (LH i !! j) as [k|] eqn:Ek; [|done]. injection Hth as <-. cbn [trel]. exists k.
    change (0 + j) with j. split; [apply Ho2; [lia|done]|]. split; [done|].
    intros k' p Hk' Hp. rewrite (Permutation_length (HselG k')) in Hp. unfold slf. rewrite Hc2 by lia.
    intros [= Heq]. destruct (layout_inj w k' i (length (H k') + p) j (f k') (f i)) as [-> ?]; auto; try lia.
    - apply Hw; lia.
    - apply Hw; lia.
    - unfold f. lia.
    - rewrite HlenH in Hj. unfold f. lia.
    - rewrite HlenH in Hj. lia. }
  cbn [ok]. destruct (cfinished c3); cbn [negb]; [|done].
  destruct (H3 eq_refl) as (_&Hl3&_&(LG&HLG&Hout3)&Hfr3). set (o3 := c_ind c3) in *.
  apply (list_answer n _ (fun k => LH k ++ LG k) f); auto.
  - intros k Hkn. rewrite (HLH k), (HLG k), (HselG k). done.
  - intros k Hkn. unfold f. by rewrite app_length.
  - rewrite Hl3, Hl. done.
  - intros k p v Hkn Hv. apply lookup_app_Some in Hv as [Hv|[Hge Hv]].
    + rewrite Hfr3; [by apply Ho2|]. intros i b p' Hb Hp' Heq. fold w in Heq. assert (i < n) as Hi by (apply lookup_lt_Some in Hb; lia).
      rewrite Hc2 in Hb by done. injection Hb as <-. rewrite (Permutation_length (HselG i)) in Hp'.
      apply lookup_lt_Some in Hv. rewrite HlenH in Hv.
      destruct (layout_inj w k i p (length (H i) + p') (f k) (f i)) as [-> ?]; auto; try (unfold f; lia).
    + replace (sum_list (take k (widths f n)) + p) with ((sum_list (take k w) + length (H k)) + (p - length (H k)))
        by (rewrite HlenH in Hge; fold w; lia).
      rewrite HlenH in Hv. eapply Hout3; [|exact Hv]. by apply Hc2.
Qed.

(** Pairs (x, i) with x in list i. *)
Definition list_pairs (L : list (list nat)) : list (nat * nat) :=
  flat_map (fun i => map (fun x => (x, i)) (default [] (L !! i))) (seq 0 (length L)).

Lemma slice_concat (L : list (list nat)) offsets i l : IsOffsets L offsets -> L !! i = Some l ->
  slice offsets (concat L) i = l.
Proof.
  intros [Hl Hq] Hi. pose proof (lookup_lt_Some _ _ _ Hi) as Hlt. unfold slice.
  rewrite (Hq i), (Hq (S i)) by lia. cbn [default]. change (@id nat ?x) with x.
  rewrite (take_S_r _ _ _ Hi), concat_app, app_length. cbn [concat]. rewrite app_nil_r.
  replace (length (concat (take i L)) + length l - length (concat (take i L))) with (length l) by lia.
  replace (concat L) with (concat (take i L) ++ l ++ concat (drop (S i) L)).
  - by rewrite drop_app, take_app.
  - rewrite <- (take_drop_middle L i l Hi) at 3. rewrite concat_app. done.
Qed.

Lemma expand_ok (L : list (list nat)) ts1 ts2 offsets :
  IsOffsets L offsets -> (forall k l x, L !! k = Some l -> x ∈ l -> x < length L) ->
  match expandHalfToFull offsets (concat L) ts1 ts2 with
  | UB | Thrown => False | Unfinished => True
  | Done out offs => ListAnswer (length L) (fun k => sel k (map swap (list_pairs L)) ++ sel k (list_pairs L)) out offs
  end.
Proof.
  intros HO HL. unfold expandHalfToFull. pose proof HO as [Hlen _]. rewrite Hlen.
  replace (S (length L) - 1) with (length L) by lia. set (n := length L).
  set (sl := fun i => default [] (L !! i)).
  assert (forall i, i < n -> slice offsets (concat L) i = sl i) as Hsl.
  { intros i Hi. destruct (lookup_lt_is_Some_2 L i Hi) as [l Hl]. unfold sl. rewrite Hl. by apply slice_concat. }
  assert (expand_count_prog n offsets (concat L) = map (fun i => flat_map (fun k => [(i, 0); (k, 0)]) (sl i)) (seq 0 n)) as ->.
  { unfold expand_count_prog. apply map_ext_in. intros i Hi. apply in_seq in Hi. by rewrite Hsl by lia. }
  assert (expand_prog n offsets (concat L) = flat_map (fun i => map (fun k => [(i, k); (k, i)]) (sl i)) (seq 0 n)) as ->.
  { unfold expand_prog. rewrite !flat_map_concat_map. f_equal. apply map_ext_in. intros i Hi. apply in_seq in Hi. by rewrite Hsl by lia. }
  set (prog2 := flat_map (fun i => map (fun k => [(i, k); (k, i)]) (sl i)) (seq 0 n)).
  set (prog1 := map (fun i => flat_map (fun k => [(i, 0); (k, 0)]) (sl i)) (seq 0 n)).
  set (P := list_pairs L).
  assert (concat prog2 = flat_map (fun p => [(snd p, fst p); (fst p, snd p)]) P) as E2.
  { unfold prog2, P, list_pairs. fold n. change (fun i => map (fun x => (x, i)) (default [] (L !! i))) with (fun i => map (fun x => (x, i)) (sl i)).
    clearbody sl. clear. induction (seq 0 n) as [|i l IH]; [done|]. cbn [flat_map]. rewrite concat_app, flat_map_app, IH. f_equal.
    induction (sl i) as [|x y IHy]; [done|]. cbn. by rewrite IHy. }
  assert (concat prog1 = flat_map (fun p => [(snd p, 0); (fst p, 0)]) P) as E1.
  { unfold prog1, P, list_pairs. fold n. change (fun i => map (fun x => (x, i)) (default [] (L !! i))) with (fun i => map (fun x => (x, i)) (sl i)).
    clearbody sl. clear. induction (seq 0 n) as [|i l IH]; [done|]. cbn [flat_map map concat]. rewrite flat_map_app, IH. f_equal.
    induction (sl i) as [|x y IHy]; [done|]. cbn. by rewrite IHy. }
  assert (Within n P) as HW.
  { intros a b Hab. unfold P, list_pairs in Hab. apply elem_of_list_In, in_flat_map in Hab as (i&Hi&Hab).
    apply in_seq in Hi. apply in_map_iff in Hab as (x&[= -> <-]&Hx). split; [|unfold n; lia].
    destruct (L !! i) as [l|] eqn:El; [|done]. apply (HL i l); [done|]. by apply elem_of_list_In. }
  set (g := fun k => sel k (map swap P) ++ sel k P).
  assert (forall k, sel k (concat prog2) ≡ₚ g k) as Hg2.
  { intros k. rewrite E2. unfold g. clear. induction P as [|[a b] P IH]; [done|]. cbn [flat_map app sel map fst snd].
    destruct (k =? b), (k =? a); rewrite IH; try done; cbn [app]; by rewrite Permutation_middle. }
  assert (forall k, length (sel k (concat prog1)) = length (g k)) as Hg1.
  { intros k. rewrite E1. unfold g. clear. induction P as [|[a b] P IH]; [done|]. cbn [flat_map app sel map fst snd].
    rewrite app_length in *. destruct (k =? b), (k =? a); cbn [length]; rewrite IH; lia. }
  destruct (count_pass prog1 (n + 1) ts1) as (s1&->&H1).
  { intros i v Hi. rewrite E1 in Hi. apply elem_of_list_In, in_flat_map in Hi as ([a b]&Hab&Hi).
    apply elem_of_list_In, HW in Hab as [? ?]. cbn [fst snd] in Hi. destruct Hi as [[= <- <-]|[[= <- <-]|[]]]; lia. }
  cbn [ok]. destruct (pfinished s1); cbn [negb]; [|done]. rewrite (H1 eq_refl).
  set (f := fun i => length (g i)).
  replace (map (fun i => length (sel i (concat prog1))) (seq 0 (n + 1))) with (widths f (n + 1)).
  2:{ unfold widths. apply map_ext. intros i. by rewrite Hg1. }
  rewrite scan_last. cbn [ok].
  set (offs := excl_scan 0 (widths f (n + 1))). set (w := widths f n).
  assert (forall q, q <= n -> offs !! q = Some (sum_list (take q w))) as Hoffs by (intros q Hq; exact (scan_offsets f n q Hq)).
  assert (length offs = n + 1) as Hlo by (unfold offs; rewrite excl_scan_length; apply widths_length).
  assert (forall k v, (k, v) ∈ concat prog2 -> k < n) as Hk2.
  { intros i v Hi. rewrite E2 in Hi. apply elem_of_list_In, in_flat_map in Hi as ([a b]&Hab&Hi).
    apply elem_of_list_In, HW in Hab as [? ?]. cbn [fst snd] in Hi. destruct Hi as [[= <- <-]|[[= <- <-]|[]]]; lia. }
  destruct (fill_pass w offs (replicate (sum_list w) None) prog2) with (ts := ts2) as (s2&->&H2).
  { split; [|split].
    - intros i v Hi. apply Hk2 in Hi. lia.
    - intros i b Hb Hpos. rewrite (Permutation_length (Hg2 i)) in *.
      assert (i < n) as Hi.
      { destruct (sel i (concat prog2)) as [|v l] eqn:Es; [exfalso; pose proof (Permutation_length (Hg2 i)) as Hx; rewrite Es in Hx; simpl in Hx; lia|].
        apply (Hk2 i v). apply sel_elem_iff. rewrite Es. left. }
      rewrite Hoffs in Hb by lia. injection Hb as <-.
      exists (f i), 0. split; [by apply widths_lookup|]. unfold f. lia.
    - by rewrite replicate_length. }
  cbn [ok]. destruct (pfinished s2); cbn [negb]; [|done].
  destruct (H2 eq_refl) as (_&Hl&_&(Lf&HLf&Hout)&_). rewrite replicate_length in Hl.
  apply (list_answer n _ Lf f); auto.
  - intros k _. rewrite (HLf k). apply Hg2.
  - intros k p v Hkn Hv. eapply Hout; [|exact Hv]. apply Hoffs. lia.
Qed.
