(** Proofs about sorting, filtering and applying merge pairs (DistDbscanModel). *)
From Verif Require Export DistDbscanModel HeapSpec KernelAlgProof UnionFindSpec.
From Verif Require Import PropertiesKernelAlg.
From Coq Require Import Sorting.Sorted.
Local Open Scope nat_scope.

(** ** Sorting *)
Definition mp_le (a b : mpair) : Prop := mp_ltb b a = false.
Lemma mp_le_iff a b : mp_le a b <-> (fst a < fst b)%Z \/ (fst a = fst b /\ (snd a <= snd b)%Z).
Proof.
  unfold mp_le, mp_ltb. rewrite orb_false_iff, andb_false_iff, !Z.ltb_ge, Z.eqb_neq.
  split; lia.
Qed.
Lemma mp_insert_perm p l : mp_insert p l ≡ₚ p :: l.
Proof. induction l as [|q l IH]; simpl; [done|]. destruct (mp_ltb q p); [|done]. rewrite IH. apply Permutation_swap. Qed.
Lemma mp_sort_perm l : mp_sort l ≡ₚ l.
Proof. induction l as [|p l IH]; simpl; [done|]. by rewrite mp_insert_perm, IH. Qed.
Lemma mp_insert_sorted p l : StronglySorted mp_le l -> StronglySorted mp_le (mp_insert p l).
Proof.
  induction 1 as [|q l Hs IH Hall]; simpl; [by repeat constructor|].
  destruct (mp_ltb q p) eqn:E.
  - constructor; [done|]. rewrite mp_insert_perm. constructor; [|done].
    apply mp_le_iff. unfold mp_ltb in E. apply orb_true_iff in E. rewrite andb_true_iff, !Z.ltb_lt, Z.eqb_eq in E. lia.
  - constructor; [by constructor|]. constructor; [done|]. eapply Forall_impl; [done|]. intros x Hx. simpl in *.
    assert (mp_le p q) as Hpq by done. apply mp_le_iff. apply mp_le_iff in Hx, Hpq. lia.
Qed.
Lemma mp_sort_sorted l : StronglySorted mp_le (mp_sort l).
Proof. induction l; simpl; [constructor|]. by apply mp_insert_sorted. Qed.

(** ** The filter as a recursion over the sorted list *)
Fixpoint more (prev : mpair) (from to : Z) (l : list mpair) : list mpair :=
  match l with
  | [] => []
  | p :: l => if (fst p =? from)%Z then
                if (snd p =? snd prev)%Z then more p from to l else (snd p, to) :: more p from to l
              else []
  end.
Definition same_from (prev : option mpair) (p : mpair) : bool :=
  match prev with Some q => (fst p =? fst q)%Z | None => false end.
Fixpoint filt (prev : option mpair) (l : list mpair) : list (list mpair) :=
  match l with
  | [] => []
  | p :: l => (if same_from prev p then [] else p :: more p (fst p) (snd p) l) :: filt (Some p) l
  end.

Lemma more_targets_eq fuel s j prev from to : length s - j < fuel -> s !! (j - 1) = Some prev -> 1 <= j ->
  more_targets fuel s j from to = Some (more prev from to (drop j s)).
Proof.
  revert j prev. induction fuel as [|fuel IH]; intros j prev Hf Hp Hj; [lia|]. cbn [more_targets].
  destruct (Nat.leb_spec (length s) j) as [H|H]; [by rewrite drop_ge|].
  destruct (lookup_lt_is_Some_2 s j H) as [p Ep]. rewrite Ep, Hp. cbn [mbind option_bind]. rewrite (drop_S _ _ _ Ep). cbn [more].
  destruct (fst p =? from)%Z; [|done].
  rewrite (IH (S j) p) by (simpl; rewrite ?Nat.sub_0_r; try lia; done). simpl. destruct (snd p =? snd prev)%Z; done.
Qed.
Lemma filter_body_eq s i p : s !! i = Some p ->
  filter_body s i = Some (if same_from (match i with O => None | S i' => s !! i' end) p then [] else p :: more p (fst p) (snd p) (drop (S i) s)).
Proof.
  intros E. unfold filter_body. rewrite E. cbn [mbind option_bind].
  rewrite (more_targets_eq _ s (S i) p) by (simpl; rewrite ?Nat.sub_0_r; done || lia). cbn [mbind option_bind].
  destruct i as [|i]; [done|]. destruct (lookup_lt_is_Some_2 s i) as [q Eq]; [apply lookup_lt_Some in E; lia|].
  rewrite Eq. simpl. done.
Qed.
Lemma mapM_filter_body s k : k <= length s ->
  mapM (filter_body s) (seq k (length s - k)) = Some (filt (match k with O => None | S k' => s !! k' end) (drop k s)).
Proof.
  intros Hk. remember (length s - k) as d eqn:Hd. revert k Hk Hd. induction d as [|d IH]; intros k Hk Hd.
  - rewrite drop_ge by lia. done.
  - destruct (lookup_lt_is_Some_2 s k) as [p Ep]; [lia|]. rewrite (drop_S _ _ _ Ep). cbn [seq mapM filt].
    rewrite (filter_body_eq _ _ _ Ep). cbn [mbind option_bind]. rewrite (IH (S k)) by lia. rewrite Ep. done.
Qed.

(** The pairs fit in the view. *)
Fixpoint runlen (from : Z) (l : list mpair) : nat :=
  match l with [] => 0 | p :: l => if (fst p =? from)%Z then S (runlen from l) else 0 end.
Lemma more_len prev from to l : length (more prev from to l) <= runlen from l.
Proof.
  revert prev. induction l as [|p l IH]; intros prev; simpl; [done|]. destruct (fst p =? from)%Z; [|done].
  specialize (IH p). destruct (snd p =? snd prev)%Z; simpl; lia.
Qed.
Lemma filt_len prev l : length (concat (filt prev l)) + match prev with Some q => runlen (fst q) l | None => 0 end <= length l.
Proof.
  revert prev. induction l as [|p l IH]; intros prev; [destruct prev; simpl; lia|].
  cbn [filt concat length]. rewrite app_length. specialize (IH (Some p)). cbn iota in IH.
  destruct prev as [q|]; cbn [same_from].
  - cbn [runlen]. destruct (Z.eqb_spec (fst p) (fst q)) as [E|E].
    + rewrite E in IH. simpl. lia.
    + cbn [length]. pose proof (more_len p (fst p) (snd p) l). lia.
  - cbn [length]. pose proof (more_len p (fst p) (snd p) l). lia.
Qed.

(** ** Soundness of the filter *)
Definition Link (pairs : list mpair) (a b : Z) : Prop := (a, b) ∈ pairs.
Definition ZConn (R : Z -> Z -> Prop) : Z -> Z -> Prop := clos_refl_sym_trans Z R.
Definition Down (pairs : list mpair) : Prop := forall f t, (f, t) ∈ pairs -> (t < f)%Z.
Lemma zrefl R x : ZConn R x x. Proof. apply rst_refl. Qed.
Lemma zsym R x y : ZConn R x y -> ZConn R y x. Proof. apply rst_sym. Qed.
Lemma ztrans R x y z : ZConn R x y -> ZConn R y z -> ZConn R x z. Proof. apply rst_trans. Qed.
Lemma zstep (R : Z -> Z -> Prop) x y : R x y -> ZConn R x y. Proof. apply rst_step. Qed.
Lemma zmap (R R' : Z -> Z -> Prop) : (forall x y, R x y -> ZConn R' x y) -> forall x y, ZConn R x y -> ZConn R' x y.
Proof. intros H x y HC. induction HC; [by apply H|apply zrefl|by apply zsym|by eapply ztrans]. Qed.

Lemma more_sound prev from to l : StronglySorted mp_le (prev :: l) -> fst prev = from -> (to <= snd prev)%Z ->
  forall f t, (f, t) ∈ more prev from to l -> t = to /\ (to < f)%Z /\ (from, f) ∈ l.
Proof.
  revert prev. induction l as [|p l IH]; intros prev Hs Hf Ht f t Hin; simpl in Hin; [by apply elem_of_nil in Hin|].
  inversion Hs as [|? ? Hs' Hall]; subst. apply Forall_cons in Hall as [Hpp Hall].
  destruct (Z.eqb_spec (fst p) (fst prev)) as [E|E]; [|by apply elem_of_nil in Hin].
  apply mp_le_iff in Hpp.
  assert (forall f t, (f, t) ∈ more p (fst prev) to l -> t = to /\ (to < f)%Z /\ (fst prev, f) ∈ p :: l) as Hrec.
  { intros f' t' H. destruct (IH p Hs') with (f := f') (t := t') as (? & ? & ?); [done|lia|done|]. split; [done|]. split; [done|by right]. }
  destruct (Z.eqb_spec (snd p) (snd prev)); [by apply Hrec|].
  apply elem_of_cons in Hin as [[= -> ->]|Hin]; [|by apply Hrec].
  split; [done|]. split; [lia|]. rewrite <- E. destruct p; left.
Qed.
Lemma filt_sound prev l : StronglySorted mp_le l -> forall f t, (f, t) ∈ concat (filt prev l) ->
  (f, t) ∈ l \/ exists g, (g, f) ∈ l /\ (g, t) ∈ l /\ (t < f)%Z.
Proof.
  revert prev. induction l as [|p l IH]; intros prev Hs f t Hin; cbn [filt concat] in Hin; [by apply elem_of_nil in Hin|].
  inversion Hs as [|? ? Hs' Hall]; subst.
  apply elem_of_app in Hin as [Hin|Hin].
  - destruct (same_from prev p); [by apply elem_of_nil in Hin|].
    apply elem_of_cons in Hin as [<-|Hin]; [left; left|].
    apply more_sound in Hin as (-> & H1 & H2); try done. right. exists (fst p). split; [by right|]. split; [|done].
    destruct p; left.
  - destruct (IH _ Hs' _ _ Hin) as [H|(g & H1 & H2 & H3)]; [left; by right|]. right. exists g. split; [by right|]. split; [by right|done].
Qed.
(** With a single target per label, the filter only removes duplicates. *)
Definition OneTarget (pairs : list mpair) : Prop := forall f t t', (f, t) ∈ pairs -> (f, t') ∈ pairs -> t = t'.
Lemma filt_complete prev l : StronglySorted mp_le (match prev with Some q => q :: l | None => l end) ->
  OneTarget (match prev with Some q => q :: l | None => l end) ->
  forall f t, (f, t) ∈ l -> (f, t) ∈ concat (filt prev l) \/ prev = Some (f, t).
Proof.
  revert prev. induction l as [|p l IH]; intros prev Hs Ho f t Hin; [by apply elem_of_nil in Hin|].
  cbn [filt concat]. rewrite elem_of_app.
  assert (StronglySorted mp_le (p :: l) /\ OneTarget (p :: l)) as [Hs' Ho'].
  { destruct prev as [q|]; [|done]. inversion Hs; subst. split; [done|]. intros f' t' t'' Ha Hb. eapply Ho; by right. }
  assert ((f, t) = p -> (f, t) ∈ (if same_from prev p then [] else p :: more p (fst p) (snd p) l) \/ prev = Some (f, t)) as Hp.
  { intros <-. destruct prev as [[a b]|]; simpl; [|left; left].
    destruct (Z.eqb_spec f a) as [->|]; [|left; left]. right. f_equal. f_equal. eapply (Ho a); [left|right; left]. }
  apply elem_of_cons in Hin as [E|Hin].
  - destruct (Hp E); auto.
  - destruct (IH (Some p) Hs' Ho' f t Hin) as [H|[= ->]]; [auto|]. destruct (Hp eq_refl); auto.
Qed.

Lemma sortAndFilter_ok pairs : Down pairs -> exists out, sortAndFilter pairs = Some out /\
  StronglySorted mp_le out /\ Down out /\ (forall f t, (f, t) ∈ out -> ZConn (Link pairs) f t) /\
  (OneTarget pairs -> forall p, p ∈ out <-> p ∈ pairs).
Proof.
  intros Hd. unfold sortAndFilter. destruct pairs as [|p0 l0]; [exists []; split; [done|]; split; [apply SSorted_nil|]; split; [done|]; split; [intros ?? H; by apply elem_of_nil in H|done]|].
  set (pairs := p0 :: l0) in *. clearbody pairs. clear p0 l0. set (s := mp_sort pairs).
  pose proof (mapM_filter_body s 0 ltac:(lia)) as HM. rewrite Nat.sub_0_r, drop_0 in HM. cbn zeta. setoid_rewrite HM. cbn [mbind option_bind].
  pose proof (filt_len None s) as Hlen. rewrite Nat.add_0_r in Hlen. destruct (Nat.leb_spec (length (concat (filt None s))) (length s)); [|lia].
  pose proof (mp_sort_sorted pairs) as Hss. fold s in Hss.
  assert (forall p, p ∈ s <-> p ∈ pairs) as Hin by (intros; unfold s; by rewrite mp_sort_perm).
  eexists. split; [done|]. split; [apply mp_sort_sorted|]. split; [|split; [|intros Hone p; split]].
  - intros f t. rewrite mp_sort_perm. intros HH. apply filt_sound in HH as [HH|(g & H1 & H2 & H3)]; [|done|done].
    apply Hd. by apply Hin.
  - intros f t. rewrite mp_sort_perm. intros HH. apply filt_sound in HH as [HH|(g & H1 & H2 & H3)]; [| |done].
    + apply zstep. by apply Hin.
    + eapply ztrans; [apply zsym|]; apply zstep; by apply Hin.
  - rewrite mp_sort_perm. destruct p as [f t]. intros HH. apply filt_sound in HH as [HH|(g & H1 & H2 & H3)]; [by apply Hin| |done].
    exfalso. apply Hin in H1, H2. pose proof (Hone _ _ _ H1 H2). lia.
  - rewrite mp_sort_perm. destruct p as [f t]. intros HH. apply Hin in HH.
    destruct (filt_complete None s) with (f := f) (t := t) as [|]; try done.
    intros f' t' t'' Ha Hb. apply Hin in Ha, Hb. by eapply Hone.
Qed.

(** ** Applying the pairs *)
Definition first_target (pairs : list mpair) (label : Z) : option Z :=
  snd <$> head (List.filter (fun p => (fst p =? label)%Z) pairs).
Lemma Zltb_SW : StrictWeak Z.ltb.
Proof.
  constructor.
  - intros x. apply Z.ltb_irrefl.
  - intros x y z. rewrite !Z.ltb_lt. lia.
  - intros x y z. rewrite !Z.ltb_ge. lia.
Qed.
Lemma sorted_from pairs : StronglySorted mp_le pairs -> SortedRange Z.ltb (fst <$> pairs) 0 (length pairs).
Proof.
  intros Hs i j x y _ Hij Hj Hx Hy. apply list_lookup_fmap_Some in Hx as (p & Hp & ->). apply list_lookup_fmap_Some in Hy as (q & Hq & ->).
  apply Z.ltb_ge. assert (mp_le p q) as Hle; [|apply mp_le_iff in Hle; lia].
  clear Hj. revert i j p q Hp Hq Hij. induction Hs as [|a l Hs IH Hall]; intros i j p q Hp Hq Hij; [done|].
  destruct j as [|j]; [lia|]. destruct i as [|i]; simpl in *.
  - injection Hp as <-. rewrite Forall_lookup in Hall. by apply (Hall j).
  - apply (IH i j); try done. lia.
Qed.
Lemma first_target_Some pairs label t : first_target pairs label = Some t -> (label, t) ∈ pairs.
Proof.
  unfold first_target. intros H. destruct (head (List.filter (fun p => (fst p =? label)%Z) pairs)) as [[f t']|] eqn:E; [|done].
  injection H as <-. assert ((f, t') ∈ List.filter (fun p => (fst p =? label)%Z) pairs) as Hin.
  { destruct (List.filter _ pairs); [done|]. injection E as ->. left. }
  apply elem_of_list_In, filter_In in Hin as [Hin Hf]. apply Z.eqb_eq in Hf. simpl in Hf. subst f. by apply elem_of_list_In.
Qed.
Lemma first_target_None pairs label : first_target pairs label = None -> forall t, (label, t) ∉ pairs.
Proof.
  unfold first_target. intros H t Hin. destruct (List.filter (fun p => (fst p =? label)%Z) pairs) as [|p l] eqn:E; [|done].
  assert ((label, t) ∈ List.filter (fun p => (fst p =? label)%Z) pairs) as Hf.
  { apply elem_of_list_In, filter_In. split; [by apply elem_of_list_In|]. apply Z.eqb_refl. }
  rewrite E in Hf. by apply elem_of_nil in Hf.
Qed.
Lemma first_target_split l1 p l2 label : (forall q, q ∈ l1 -> (fst q < label)%Z) -> fst p = label -> first_target (l1 ++ p :: l2) label = Some (snd p).
Proof.
  intros H1 Hp. unfold first_target. induction l1 as [|q l1 IH]; simpl.
  - rewrite Hp, Z.eqb_refl. done.
  - assert (fst q < label)%Z by (apply H1; left). destruct (Z.eqb_spec (fst q) label); [lia|]. apply IH. intros; apply H1. by right.
Qed.

Lemma chase_step pairs label fuel : StronglySorted mp_le pairs ->
  chase (S fuel) (fst <$> pairs) (snd <$> pairs) label =
  match first_target pairs label with Some t => chase fuel (fst <$> pairs) (snd <$> pairs) t | None => Some label end.
Proof.
  intros Hs. cbn [chase]. rewrite fmap_length.
  destruct (C19_lower_bound Z.ltb Zltb_SW (fst <$> pairs) 0 (length pairs) label) as (k & -> & Hk & Hlo & Hhi);
    [lia|by rewrite fmap_length|by apply sorted_from|]. cbn [mbind option_bind].
  destruct (Nat.eqb_spec k (length pairs)) as [->|Hne].
  - destruct (first_target pairs label) as [t|] eqn:E; [|done]. apply first_target_Some in E.
    apply elem_of_list_lookup in E as [i Ei]. pose proof (lookup_lt_Some _ _ _ Ei).
    assert (Z.ltb label label = true) as Hb by (apply (Hlo i); [lia|by rewrite list_lookup_fmap, Ei]).
    rewrite Z.ltb_irrefl in Hb. done.
  - destruct (lookup_lt_is_Some_2 pairs k) as [p Ep]; [lia|]. rewrite !list_lookup_fmap, Ep. cbn [mbind option_bind fmap option_map option_fmap].
    destruct (Z.eqb_spec (fst p) label) as [E|E].
    + assert (first_target pairs label = Some (snd p)) as ->; [|done].
      rewrite <- (take_drop k pairs), (drop_S _ _ _ Ep). apply first_target_split; [|done].
      intros q Hq. apply elem_of_list_lookup in Hq as [i Hi]. pose proof (lookup_lt_Some _ _ _ Hi) as Hil. rewrite take_length in Hil.
      rewrite lookup_take in Hi by lia. apply Z.ltb_lt. apply (Hlo i); [lia|by rewrite list_lookup_fmap, Hi].
    + destruct (first_target pairs label) as [t|] eqn:Ef; [|done]. exfalso. apply first_target_Some in Ef.
      apply elem_of_list_lookup in Ef as [i Ei]. pose proof (lookup_lt_Some _ _ _ Ei).
      destruct (Nat.lt_ge_cases i k) as [Hik|Hik].
      * assert (Z.ltb label label = true) as Hb by (apply (Hlo i); [lia|by rewrite list_lookup_fmap, Ei]).
        rewrite Z.ltb_irrefl in Hb. done.
      * assert (Z.ltb (fst p) label = false) as Hb by (apply (Hhi k); [lia|by rewrite list_lookup_fmap, Ep]).
        apply Z.ltb_ge in Hb.
        assert (Z.ltb label (fst p) = false) as Hc.
        { destruct (decide (i = k)) as [->|]; [rewrite Ep in Ei; injection Ei as ->; done|].
          apply (sorted_from pairs Hs k i); try lia; rewrite list_lookup_fmap; [by rewrite Ep|by rewrite Ei]. }
        apply Z.ltb_ge in Hc. lia.
Qed.

Definition below (pairs : list mpair) (label : Z) : nat := length (List.filter (fun p => (fst p <=? label)%Z) pairs).
Lemma below_lt pairs label t : (label, t) ∈ pairs -> (t < label)%Z -> below pairs t < below pairs label.
Proof.
  intros Hin Ht. unfold below. induction pairs as [|p l IH]; [by apply elem_of_nil in Hin|]. simpl.
  assert (length (List.filter (fun p => (fst p <=? t)%Z) l) <= length (List.filter (fun p => (fst p <=? label)%Z) l)) as Hle.
  { clear -Ht. induction l as [|q l IH]; simpl; [done|]. destruct (Z.leb_spec (fst q) t), (Z.leb_spec (fst q) label); simpl; lia. }
  apply elem_of_cons in Hin as [<-|Hin].
  - simpl. destruct (Z.leb_spec label t); [lia|]. rewrite Z.leb_refl. simpl. lia.
  - specialize (IH Hin). destruct (Z.leb_spec (fst p) t), (Z.leb_spec (fst p) label); simpl; lia.
Qed.
Lemma below_le pairs label : below pairs label <= length pairs.
Proof. unfold below. induction pairs as [|p l IH]; simpl; [done|]. destruct (fst p <=? label)%Z; simpl; lia. Qed.

Lemma chase_ok pairs : StronglySorted mp_le pairs -> Down pairs -> forall fuel label, below pairs label < fuel ->
  exists l', chase fuel (fst <$> pairs) (snd <$> pairs) label = Some l' /\ ZConn (Link pairs) label l' /\
    forall fuel', below pairs label < fuel' -> chase fuel' (fst <$> pairs) (snd <$> pairs) label = Some l'.
Proof.
  intros Hs Hd fuel. induction fuel as [|fuel IH]; intros label Hf; [lia|]. rewrite chase_step by done.
  destruct (first_target pairs label) as [t|] eqn:E.
  - pose proof (first_target_Some _ _ _ E) as Hin. pose proof (below_lt _ _ _ Hin (Hd _ _ Hin)) as Hb.
    destruct (IH t ltac:(lia)) as (l' & H1 & H2 & H3). exists l'. split; [done|]. split; [eapply ztrans; [by apply zstep|done]|].
    intros [|fuel'] Hf'; [lia|]. rewrite chase_step, E by done. apply H3. lia.
  - exists label. split; [done|]. split; [apply zrefl|]. intros [|fuel'] Hf'; [lia|]. by rewrite chase_step, E.
Qed.

(** the label a label becomes *)
Definition final (pairs : list mpair) (label : Z) : Z := default label (chase (S (length pairs)) (fst <$> pairs) (snd <$> pairs) label).
Lemma final_eq pairs label : StronglySorted mp_le pairs -> Down pairs ->
  chase (S (length pairs)) (fst <$> pairs) (snd <$> pairs) label = Some (final pairs label).
Proof.
  intros Hs Hd. pose proof (below_le pairs label). unfold final.
  destruct (chase_ok pairs Hs Hd (S (length pairs)) label ltac:(lia)) as (l' & -> & _). done.
Qed.
Lemma final_conn pairs label : StronglySorted mp_le pairs -> Down pairs -> ZConn (Link pairs) label (final pairs label).
Proof.
  intros Hs Hd. pose proof (below_le pairs label). unfold final.
  destruct (chase_ok pairs Hs Hd (S (length pairs)) label ltac:(lia)) as (l' & -> & ? & _). done.
Qed.
Lemma final_one pairs f t : StronglySorted mp_le pairs -> Down pairs -> OneTarget pairs -> (f, t) ∈ pairs -> final pairs f = final pairs t.
Proof.
  intros Hs Hd Ho Hin. unfold final. rewrite chase_step by done.
  destruct (first_target pairs f) as [t'|] eqn:E.
  - pose proof (first_target_Some _ _ _ E) as Hin'. assert (t' = t) as -> by (by eapply Ho).
    pose proof (below_lt _ _ _ Hin (Hd _ _ Hin)) as Hb. pose proof (below_le pairs f).
    destruct (chase_ok pairs Hs Hd (length pairs) t ltac:(lia)) as (l' & -> & _ & H3). rewrite (H3 (S (length pairs))) by lia. done.
  - exfalso. by eapply first_target_None.
Qed.
Lemma relabel_ok pairs labels : StronglySorted mp_le pairs -> Down pairs -> relabel pairs labels = Some (final pairs <$> labels).
Proof.
  intros Hs Hd. unfold relabel. induction labels as [|l labels IH]; [done|]. cbn [mapM]. rewrite final_eq by done. cbn [mbind option_bind].
  rewrite IH. done.
Qed.

(** ** Filtering on every rank and again globally *)
Lemma Down_concat raw : (forall r ps, raw !! r = Some ps -> Down ps) -> Down (concat raw).
Proof.
  intros H f t Hin. apply elem_of_list_In, in_concat in Hin as (ps & Hps & Hin).
  apply elem_of_list_In, elem_of_list_lookup in Hps as [r Hr]. apply (H r ps Hr). by apply elem_of_list_In.
Qed.
Lemma elem_of_concat {A} (x : A) (ls : list (list A)) : x ∈ concat ls <-> exists l, l ∈ ls /\ x ∈ l.
Proof.
  rewrite elem_of_list_In, in_concat. split; intros (l & H1 & H2); exists l; [rewrite !elem_of_list_In|rewrite !elem_of_list_In in *]; done.
Qed.
Lemma filter_local raw : Down (concat raw) -> exists local, mapM sortAndFilter raw = Some local /\ Down (concat local) /\
  (forall f t, (f, t) ∈ concat local -> ZConn (Link (concat raw)) f t) /\
  (OneTarget (concat raw) -> forall p, p ∈ concat local <-> p ∈ concat raw).
Proof.
  induction raw as [|ps raw IH]; intros Hd.
  - exists []. split; [done|]. split; [done|]. split; [intros f t H; by apply elem_of_nil in H|done].
  - cbn [concat] in Hd. assert (Down ps) as Hd1 by (intros f t H; apply Hd, elem_of_app; by left).
    assert (Down (concat raw)) as Hd2 by (intros f t H; apply Hd, elem_of_app; by right).
    destruct (IH Hd2) as (local & Hrun & L1 & L2 & L3). destruct (sortAndFilter_ok ps Hd1) as (out & Ho & _ & O1 & O2 & O3).
    exists (out :: local). cbn [mapM]. rewrite Ho. cbn [mbind option_bind]. rewrite Hrun. split; [done|]. cbn [concat]. split; [|split].
    + intros f t H. apply elem_of_app in H as [H|H]; [by apply O1|by apply L1].
    + intros f t H. apply elem_of_app in H as [H|H]; [eapply zmap; [|by apply O2]|eapply zmap; [|by apply L2]];
        intros x y Hxy; apply zstep; apply elem_of_app; [by left|by right].
    + intros Hone p. rewrite !elem_of_app.
      rewrite O3, L3; [done|intros f t t' ??; eapply Hone; apply elem_of_app; by right|intros f t t' ??; eapply Hone; apply elem_of_app; by left].
Qed.
Lemma filter_pairs_ok raw : Down (concat raw) -> exists pairs, filter_pairs raw = Some pairs /\ StronglySorted mp_le pairs /\ Down pairs /\
  (forall f t, (f, t) ∈ pairs -> ZConn (Link (concat raw)) f t) /\
  (OneTarget (concat raw) -> OneTarget pairs /\ forall p, p ∈ pairs <-> p ∈ concat raw).
Proof.
  intros Hd. unfold filter_pairs. destruct (filter_local raw Hd) as (local & -> & L1 & L2 & L3). cbn [mbind option_bind].
  destruct (sortAndFilter_ok (concat local) L1) as (out & -> & O0 & O1 & O2 & O3). exists out. split; [done|]. split; [done|]. split; [done|]. split.
  - intros f t H. eapply zmap; [|by apply O2]. exact L2.
  - intros Hone. assert (forall p, p ∈ out <-> p ∈ concat raw) as Hiff.
    { intros p. rewrite O3, (L3 Hone); [done|]. intros f t t' H1 H2. apply (L3 Hone) in H1, H2. by eapply Hone. }
    split; [|done]. intros f t t' H1 H2. apply Hiff in H1, H2. by eapply Hone.
Qed.
