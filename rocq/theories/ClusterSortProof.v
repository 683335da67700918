(** Proofs about ClusterSortModel. *)
From Verif Require Import Base CrsModel CrsSpec CrsProof NeighborModel NeighborProof ClusterSortModel ClusterSortSpec.

(** * Programs with at most one event per point *)
Definition key_prog (key : nat -> option nat) (i : nat) : list (nat * nat) :=
  match key i with Some k => [(k, i)] | None => [] end.

Lemma progs_some (key : nat -> option (option nat)) (k : nat -> option nat) l :
  (forall i, i ∈ l -> key i = Some (k i)) -> mapM (point_prog key) l = Some (map (key_prog k) l).
Proof.
  intros H. apply mapM_Some_2. apply Forall2_fmap_r. apply Forall_Forall2_diag, Forall_forall. intros i Hi.
  unfold point_prog. rewrite H by done. done.
Qed.

Lemma sel_progs k key l : sel k (concat (map (key_prog key) l)) = base.filter (fun i => key i = Some k) l.
Proof.
  induction l as [|i l IH]; [done|]. cbn [map concat]. rewrite sel_app, IH. unfold key_prog at 1.
  destruct (key i) as [j|] eqn:E.
  - cbn [sel]. destruct (Nat.eqb_spec k j) as [->|Hne].
    + rewrite filter_cons_True by done. done.
    + rewrite filter_cons_False by congruence. done.
  - rewrite filter_cons_False by congruence. done.
Qed.

Lemma elem_progs k i key l : (k, i) ∈ concat (map (key_prog key) l) -> i ∈ l /\ key i = Some k.
Proof. intros H. apply sel_elem_iff in H. rewrite sel_progs in H. apply elem_of_list_filter in H as [? ?]. done. Qed.

(** * Positions in a filtered range *)
Section Pos.
Context (P : nat -> Prop) {HDec : forall k, Decision (P k)}.
Definition rank_of (i : nat) : nat := length (base.filter P (seq 0 i)).

Lemma rank_lookup n i : i < n -> P i -> base.filter P (seq 0 n) !! rank_of i = Some i.
Proof.
  intros Hi HP. replace n with (i + S (n - S i)) by lia. rewrite seq_app, filter_app. cbn [seq Nat.add].
  rewrite filter_cons_True by done. unfold rank_of. rewrite lookup_app_r by done. by rewrite Nat.sub_diag.
Qed.
Lemma rank_lt n i : i < n -> P i -> rank_of i < rank_of n.
Proof. intros Hi HP. exact (lookup_lt_Some _ _ _ (rank_lookup n i Hi HP)). Qed.
Lemma rank_le n : rank_of n <= n.
Proof. unfold rank_of. rewrite filter_length, seq_length. done. Qed.
Lemma rank_inj i j : P i -> P j -> rank_of i = rank_of j -> i = j.
Proof.
  intros Hi Hj E. destruct (Nat.lt_trichotomy i j) as [H|[H|H]]; [|done|].
  - pose proof (rank_lt j i H Hi). lia.
  - pose proof (rank_lt i j H Hj). lia.
Qed.
Lemma rank_unfold n j k : base.filter P (seq 0 n) !! j = Some k -> k < n /\ P k /\ rank_of k = j.
Proof.
  intros H. assert (k ∈ base.filter P (seq 0 n)) as Hk by (by eapply elem_of_list_lookup_2).
  apply elem_of_list_filter in Hk as [HP Hk]. apply elem_of_seq in Hk. split; [lia|]. split; [done|].
  eapply NoDup_lookup; [|apply rank_lookup; [|done]|exact H]; [|lia]. apply NoDup_filter, NoDup_seq.
Qed.
End Pos.

(** * The scan *)
Section Scan.
Variables (f : nat -> nat) (n m : nat).
Notation P := (fun k => m <= f k).
Notation sizes := (widths f n).
Notation rk := (rank_of P).

Lemma filter_bool l : length (List.filter (fun s => negb (s <? m)) (map f l)) = length (base.filter P l).
Proof.
  induction l as [|i l IH]; [done|]. cbn [map List.filter].
  destruct (Nat.ltb_spec (f i) m); cbn [negb].
  - rewrite filter_cons_False by lia. done.
  - rewrite filter_cons_True by lia. cbn [length]. by rewrite IH.
Qed.
Lemma update_rank i : i <= n -> scan_update m sizes i = rk i.
Proof. intros Hi. unfold scan_update. rewrite widths_take by done. apply filter_bool. Qed.

Definition mapped (i : nat) : Z := if m <=? f i then Z.of_nat (rk i) else (-1)%Z.

Lemma scan_ok order : forall arr off, NoDup order -> (forall i, i ∈ order -> i < n /\ arr !! i = Some (Z.of_nat (f i))) ->
  length arr = n -> length off = n + 1 ->
  exists arr' off', scan_final m sizes order arr off = Some (arr', off') /\ length arr' = n /\ length off' = n + 1 /\
    (forall i, i ∈ order -> arr' !! i = Some (mapped i)) /\ (forall i, i ∉ order -> arr' !! i = arr !! i) /\
    (forall i, i ∈ order -> m <= f i -> off' !! rk i = Some (Some (f i))) /\
    (forall d, (forall i, i ∈ order -> m <= f i -> rk i <> d) -> off' !! d = off !! d).
Proof.
  induction order as [|i order IH]; intros arr off ND H Ha Ho.
  { exists arr, off. split; [done|]. split; [done|]. split; [done|]. split; [intros i Hi; by apply elem_of_nil in Hi|].
    split; [done|]. split; [intros i Hi; by apply elem_of_nil in Hi|done]. }
  apply NoDup_cons in ND as [Hni ND]. destruct (H i) as [Hi Hv]; [left|].
  cbn [scan_final]. unfold scan_step. rewrite Hv. simplo. rewrite update_rank by lia.
  assert (exists arr1 off1, (if (Z.of_nat (f i) <? Z.of_nat m)%Z then arr' ← wr arr i (-1)%Z; Some (arr', off)
     else off' ← wr off (rk i) (Some (Z.to_nat (Z.of_nat (f i)))); arr' ← wr arr i (Z.of_nat (rk i)); Some (arr', off'))
     = Some (arr1, off1) /\ arr1 = <[i := mapped i]> arr /\ length off1 = n + 1 /\
     (m <= f i -> off1 !! rk i = Some (Some (f i))) /\ (forall d, (m <= f i -> rk i <> d) -> off1 !! d = off !! d))
    as (arr1&off1&E&->&Ho1&Hin1&Hout1).
  { unfold mapped. destruct (Z.ltb_spec (Z.of_nat (f i)) (Z.of_nat m)); destruct (Nat.leb_spec m (f i)); try lia.
    - rewrite wr_Some by lia. simplo. eexists _, _. split; [reflexivity|]. split; [done|]. split; [done|]. split; [lia|done].
    - assert (rk i < length off) by (pose proof (rank_le P i); lia).
      rewrite (wr_Some off) by done. simplo. rewrite (wr_Some arr) by (rewrite ?insert_length; lia). simplo. eexists _, _. split; [reflexivity|].
      split; [done|]. split; [by rewrite insert_length|]. rewrite Nat2Z.id. split.
      + intros _. by apply list_lookup_insert.
      + intros d Hd. apply list_lookup_insert_ne. auto. }
  rewrite E. simplo.
  destruct (IH (<[i:=mapped i]> arr) off1) as (arr'&off'&->&Hla&Hlo&H1&H2&H3&H4); auto.
  { intros j Hj. destruct (H j) as [? ?]; [by right|]. split; [done|]. rewrite list_lookup_insert_ne; [done|]. intros ->. done. }
  { by rewrite insert_length. }
  exists arr', off'. split; [done|]. split; [done|]. split; [done|]. split; [|split; [|split]].
  - intros j Hj. apply elem_of_cons in Hj as [->|Hj]; [|auto]. rewrite H2 by done. apply list_lookup_insert. lia.
  - intros j Hj. apply not_elem_of_cons in Hj as [? ?]. rewrite H2 by done. by rewrite list_lookup_insert_ne.
  - intros j Hj Hm. apply elem_of_cons in Hj as [->|Hj]; [|auto]. rewrite H4; [auto|].
    intros k Hk Hmk Ek. apply (rank_inj P) in Ek; try done. by subst.
  - intros d Hd. rewrite H4.
    + apply Hout1. intros. apply Hd; [left|done].
    + intros k Hk. apply Hd. by right.
Qed.
End Scan.

(** * The whole *)
Lemma scan_junk acc l x y : excl_scan acc (l ++ [x]) = excl_scan acc (l ++ [y]).
Proof. revert acc; induction l as [|z l IH]; intros acc; simpl; [done|]. f_equal. apply IH. Qed.
Lemma widths_last f n : widths f (n + 1) = widths f n ++ [f n].
Proof. unfold widths. rewrite seq_app, map_app. done. Qed.

Section Whole.
Variables (labels : list Z) (m : nat).
Hypothesis HL : LabelsOk labels.
Hypothesis Hm : 1 <= m.
Notation n := (length labels).
Definition lab (i : nat) : option nat :=
  match labels !! i with Some l => if (l <? 0)%Z then None else Some (Z.to_nat l) | None => None end.

Lemma lab_key i : i < n -> label_key labels i = Some (lab i).
Proof. intros Hi. unfold label_key, lab. destruct (lookup_lt_is_Some_2 _ _ Hi) as [l ->]. done. Qed.
Lemma lab_iff i k : lab i = Some k <-> labels !! i = Some (Z.of_nat k).
Proof.
  unfold lab. destruct (labels !! i) as [l|]; [|done]. destruct (Z.ltb_spec l 0).
  - split; [done|]. intros [= ->]. lia.
  - split; intros [= E]; f_equal; lia.
Qed.
Lemma lab_lt i k : lab i = Some k -> k < n.
Proof. intros H. apply lab_iff in H. apply HL in H. lia. Qed.

Notation size := (fun k => length (members labels k)).
Notation big := (fun k => m <= length (members labels k)).
Notation rk := (rank_of big).

Definition slot_of (i : nat) : option nat :=
  match lab i with Some k => if m <=? size k then Some (rk k) else None | None => None end.

Lemma slot_members j k : large labels m !! j = Some k ->
  base.filter (fun i => slot_of i = Some j) (seq 0 n) = members labels k.
Proof.
  intros H. apply (rank_unfold big) in H as (Hk&HP&<-).
  apply list_filter_iff. intros i. rewrite <- lab_iff. unfold slot_of. destruct (lab i) as [k'|]; [|done].
  destruct (Nat.leb_spec m (size k')).
  - split; intros [= E]; f_equal; [|by subst]. by apply (rank_inj big).
  - split; [done|]. intros [= ->]. lia.
Qed.

Lemma sort_ok order ts1 ts2 junk : order ≡ₚ seq 0 n ->
  match sortAndFilterClusters labels m order ts1 ts2 junk with
  | UB | Thrown => False | Unfinished => True
  | Done out offs => ClusterLists labels m out offs
  end.
Proof.
  intros Hord. unfold sortAndFilterClusters. destruct (Nat.ltb_spec m 1); [lia|].
  rewrite (progs_some _ lab) by (intros i Hi; apply elem_of_seq in Hi; apply lab_key; lia). cbn [ok].
  destruct (count_pass (map (key_prog lab) (seq 0 n)) n ts1) as (s1&->&H1).
  { intros k v Hk. apply elem_progs in Hk as [_ Hk]. by eapply lab_lt. }
  cbn [ok]. destruct (pfinished s1); cbn [negb]; [|done]. specialize (H1 eq_refl).
  assert (p_counts s1 = widths size n) as ->.
  { rewrite H1. unfold widths. apply map_ext. intros k. rewrite sel_progs. unfold members. f_equal.
    apply list_filter_iff. intros i. apply lab_iff. }
  clear H1. destruct (scan_ok size n m order (map Z.of_nat (widths size n)) (replicate (n + 1) None)) as (arr&off&->&Hla&Hlo&Harr&_&Hoff&_).
  { rewrite Hord. apply NoDup_seq. }
  { intros i Hi. rewrite Hord in Hi. apply elem_of_seq in Hi. split; [lia|]. change (map ?g ?l) with (g <$> l).
    rewrite list_lookup_fmap, widths_lookup by lia. done. }
  { by rewrite map_length, widths_length. }
  { by rewrite replicate_length. }
  cbn [ok]. rewrite update_rank by done.
  set (K := large labels m). assert (rk n = length K) as Hnum by done. rewrite Hnum.
  set (g := fun j => match K !! j with Some k => size k | None => 0 end).
  assert (excl_scan 0 (map (default junk) (take (length K + 1) off)) = excl_scan 0 (widths g (length K + 1))) as ->.
  { assert (length K <= n) as HKn by (rewrite <- Hnum; apply rank_le).
    destruct (lookup_lt_is_Some_2 off (length K)) as [x Hx]; [lia|].
    replace (length K + 1) with (S (length K)) at 1 by lia.
    rewrite (take_S_r _ _ _ Hx), map_app. rewrite widths_last. cbn [map].
    rewrite (scan_junk _ _ _ (g (length K))). f_equal. f_equal.
    apply list_eq. intros j. change (map ?h ?l) with (h <$> l). rewrite list_lookup_fmap.
    destruct (Nat.lt_ge_cases j (length K)) as [Hj|Hj].
    - rewrite lookup_take, widths_lookup by done. unfold g.
      destruct (lookup_lt_is_Some_2 _ _ Hj) as [k Hk]. rewrite Hk.
      apply (rank_unfold big) in Hk as (Hkn&HP&<-). rewrite Hoff; [done| |done].
      rewrite Hord. apply elem_of_seq. lia.
    - rewrite lookup_take_ge by done. rewrite lookup_ge_None_2; [done|]. by rewrite widths_length. }
  rewrite scan_last. cbn [ok].
  rewrite (progs_some _ slot_of).
  2:{ intros i Hi. apply elem_of_seq in Hi. unfold position_key, slot_of. rewrite lab_key by lia. simplo.
      destruct (lab i) as [k|] eqn:Ek; [|done]. apply lab_lt in Ek. rewrite Harr by (rewrite Hord; apply elem_of_seq; lia).
      simplo. unfold mapped. destruct (Nat.leb_spec m (size k)); [|done].
      destruct (Z.eqb_spec (Z.of_nat (rk k)) (-1)); [lia|]. by rewrite Nat2Z.id. }
  cbn [ok]. set (offs := excl_scan 0 (widths g (length K + 1))).
  assert (forall q, q <= length K -> offs !! q = Some (sum_list (take q (widths g (length K))))) as Hoffs by (intros q Hq; exact (scan_offsets g _ q Hq)).
  assert (length offs = length K + 1) as Hlof by (unfold offs; rewrite excl_scan_length; apply widths_length).
  assert (forall j i, (j, i) ∈ concat (map (key_prog slot_of) (seq 0 n)) -> j < length K) as Hkey.
  { intros j i Hj. apply elem_progs in Hj as [_ Hj]. unfold slot_of in Hj. destruct (lab i) as [k|] eqn:Ek; [|done].
    destruct (Nat.leb_spec m (size k)); [|done]. injection Hj as <-. rewrite <- Hnum. apply (rank_lt big); [|done]. by eapply lab_lt. }
  assert (forall j, j < length K -> length (sel j (concat (map (key_prog slot_of) (seq 0 n)))) = g j) as Hg.
  { intros j Hj. rewrite sel_progs. unfold g. destruct (lookup_lt_is_Some_2 _ _ Hj) as [k Hk]. rewrite Hk.
    by rewrite (slot_members j k). }
  destruct (fill_pass (widths g (length K)) offs (replicate (sum_list (widths g (length K))) None) (map (key_prog slot_of) (seq 0 n))) with (ts := ts2) as (s2&->&H2).
  { split; [|split].
    - intros j i Hj. apply Hkey in Hj. lia.
    - intros j b Hb Hpos. assert (j < length K) as Hj.
      { destruct (sel j (concat (map (key_prog slot_of) (seq 0 n)))) as [|v l] eqn:E; [simpl in Hpos; lia|].
        apply (Hkey j v). apply sel_elem_iff. rewrite E. left. }
      rewrite Hoffs in Hb by lia. injection Hb as <-. exists (g j), 0. split; [by apply widths_lookup|].
      rewrite Hg by done. lia.
    - by rewrite replicate_length. }
  cbn [ok]. destruct (pfinished s2); cbn [negb]; [|done].
  destruct (H2 eq_refl) as (_&Hl&_&(Lf&HLf&Hout)&_). rewrite replicate_length in Hl.
  destruct (list_answer (length K) (fun j => sel j (concat (map (key_prog slot_of) (seq 0 n)))) Lf g (p_out s2))
    as (L&HLl&HLr&HLo&HLc); auto.
  { intros k Hk. symmetry. by apply Hg. }
  { intros k p v Hkn Hv. eapply Hout; [|exact Hv]. apply Hoffs. lia. }
  exists L. split; [|split; done]. apply Forall2_same_length_lookup_2; [done|].
  intros j l k Hj Hk. rewrite (HLr _ _ Hj), sel_progs. by rewrite (slot_members j k).
Qed.

(** Schedules long enough finish. *)
Definition LongEnough (ts : list nat) : Prop := forall i, i < n -> 2 <= count_occ Nat.eq_dec ts i.
Lemma long_fair key ts progs : mapM (point_prog key) (seq 0 n) = Some progs -> LongEnough ts -> Fair progs ts.
Proof.
  intros H Hts i prog Hi. apply mapM_Some_1 in H. destruct (Forall2_lookup_r _ _ _ _ _ H Hi) as (x&Hx&Hp).
  apply lookup_seq in Hx as [-> Hx]. specialize (Hts i Hx). unfold point_prog in Hp. simpl in Hp.
  destruct (key i) as [[k|]|]; simpl in Hp; [| |done]; injection Hp as <-; simpl; lia.
Qed.
Lemma sort_finishes order ts1 ts2 junk : LongEnough ts1 -> LongEnough ts2 ->
  sortAndFilterClusters labels m order ts1 ts2 junk <> Unfinished.
Proof.
  intros F1 F2. unfold sortAndFilterClusters. destruct (m <? 1); [done|].
  destruct (mapM _ _) as [p1|] eqn:E1; cbn [ok]; [|done].
  destruct (prun slot_count _ _) as [s1|] eqn:R1; cbn [ok]; [|done].
  rewrite (prun_finish _ _ _ _ _ _ R1 (long_fair _ _ _ E1 F1)). cbn [negb].
  destruct (scan_final _ _ _ _ _) as [[arr off]|]; cbn [ok]; [|done].
  destruct (list.last _); cbn [ok]; [|done].
  destruct (mapM (point_prog (position_key _ _)) _) as [p2|] eqn:E2; cbn [ok]; [|done].
  destruct (prun slot_second _ _) as [s2|] eqn:R2; cbn [ok]; [|done].
  rewrite (prun_finish _ _ _ _ _ _ R2 (long_fair _ _ _ E2 F2)). done.
Qed.
End Whole.
