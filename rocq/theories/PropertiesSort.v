(** C99: sorting by key (src/kokkos_ext/ArborX_KokkosExtSort.hpp), the contract that the models of the tree construction, of the distributed
    search and of the dendrogram start from. *)
From stdpp Require Import sorting.
From Verif Require Import Base HeapSpec SortModel PropertiesReduce.

(** Spec: the keys ascend, and keys and values are moved by one and the same permutation. *)
Definition Ascending {K} (ltb : K -> K -> bool) (ks : list K) : Prop := forall i j x y, i < j -> ks !! i = Some x -> ks !! j = Some y -> ltb y x = false.
Definition Moved {A} (perm : list nat) (l l' : list A) : Prop := length l' = length perm /\ forall i p, perm !! i = Some p -> l' !! i = l !! p.

Lemma Moved_permuted {A} perm (l : list A) : (forall p, p ∈ perm -> p < length l) -> exists l', permuted perm l = Some l' /\ Moved perm l l'.
Proof.
  unfold permuted, Moved. induction perm as [|p perm IH]; intros Hp.
  - by exists [].
  - destruct (lookup_lt_is_Some_2 l p) as [x Hx]; [apply Hp; left|]. destruct IH as (l' & E & HL & HM); [intros q Hq; apply Hp; by right|].
    exists (x :: l'). simpl. rewrite Hx. simpl. rewrite E. split; [done|]. split; [simpl; by rewrite HL|]. intros [|i] q Hq; simpl in *; [by injection Hq as <-|by apply HM].
Qed.
Lemma Moved_id {A} (l : list A) : Moved (seq 0 (length l)) l l.
Proof. split; [by rewrite seq_length|]. intros i p Hp. apply lookup_seq in Hp as [-> _]. done. Qed.

(** The bins of a permutation, put one after the other. *)
Lemma bins_perm (f : nat -> nat) (within : list nat -> list nat) n l : (forall l, within l ≡ₚ l) -> (forall i, i ∈ l -> f i < n) ->
  concat (map (fun b => within (List.filter (fun i => f i =? b) l)) (seq 0 n)) ≡ₚ l.
Proof.
  intros Hw. induction l as [|i l IH]; intros Hf.
  - assert (forall bs : list nat, concat (map (fun b => within (List.filter (fun i => f i =? b) [])) bs) ≡ₚ []) as H; [|apply H].
    intros bs. induction bs as [|b bs IH]; [done|]. simpl. rewrite Hw. simpl. exact IH.
  - assert (forall bs, NoDup bs -> f i ∈ bs -> concat (map (fun b => within (List.filter (fun i => f i =? b) (i :: l))) bs) ≡ₚ i :: concat (map (fun b => within (List.filter (fun i => f i =? b) l)) bs)) as H.
    + intros bs. induction bs as [|b bs IHb]; intros Hnd Hin; [by apply elem_of_nil in Hin|]. apply NoDup_cons in Hnd as [Hnb Hnd]. cbn [map concat List.filter]. destruct (f i =? b) eqn:E.
      * apply Nat.eqb_eq in E. rewrite !Hw. simpl. constructor. apply Permutation_app; [done|].
        assert (forall cs, (forall c, c ∈ cs -> f i <> c) -> map (fun b => within (List.filter (fun i => f i =? b) (i :: l))) cs = map (fun b => within (List.filter (fun i => f i =? b) l)) cs) as Hsame.
        { intros cs Hcs. apply map_ext_in. intros c Hc. apply elem_of_list_In in Hc. cbn [List.filter]. destruct (f i =? c) eqn:E'; [|done]. apply Nat.eqb_eq in E'. by destruct (Hcs c Hc). }
        rewrite <- Hsame; [done|]. intros c Hc Ec. apply Hnb. rewrite <- E, Ec. done.
      * apply Nat.eqb_neq in E. apply elem_of_cons in Hin as [Hin|Hin]; [by destruct E|]. rewrite IHb by done. symmetry. apply Permutation_middle.
    + rewrite H; [constructor; apply IH; intros j Hj; apply Hf; by right|apply NoDup_ListNoDup, seq_NoDup|]. apply elem_of_seq. specialize (Hf i ltac:(left)). lia.
Qed.
Lemma elem_filter {A} (f : A -> bool) l x : x ∈ List.filter f l <-> x ∈ l /\ f x = true.
Proof. rewrite !elem_of_list_In. apply filter_In. Qed.

Section Proofs.
Context {K V : Type} (ltb eqb : K -> K -> bool) (SW : StrictWeak ltb).
Context (Heq : forall x y, eqb x y = true <-> ltb x y = false /\ ltb y x = false).

(** The code sorts, whatever the order in which the keys take their places in the bins, for every bin operator that respects the order and
    stays within its bins.  Keys must lie between the start values of Kokkos::Max and Kokkos::Min: the least and the greatest
    integer; the greatest finite number and its opposite for floating point. *)
Theorem C99_sort_by_key : forall ids p bin order within keys (values : list V), length values = length keys ->
  plan_of (length keys) p -> order ≡ₚ seq 0 (length keys) ->
  (forall k, k ∈ keys -> ltb ids.1 k = false /\ ltb k ids.2 = false) ->
  (forall n lo hi x y, 1 <= n -> ltb lo hi = true -> ltb x lo = false -> ltb hi y = false -> ltb y x = false -> bin n lo hi x <= bin n lo hi y <= n) ->
  (forall l, within l ≡ₚ l /\ (forall i j a b x y, i < j -> within l !! i = Some a -> within l !! j = Some b -> keys !! a = Some x -> keys !! b = Some y -> ltb y x = false)) ->
  exists keys' values' perm, sort_by_key ltb eqb ids p bin order within keys values = Some (keys', values') /\
    perm ≡ₚ seq 0 (length keys) /\ Moved perm keys keys' /\ Moved perm values values' /\ Ascending ltb keys'.
Proof using SW Heq.
  intros ids p bin order within keys values HL Hp Ho Hids Hbin Hwithin. unfold sort_by_key. rewrite HL, Nat.eqb_refl. simpl negb. cbn iota.
  destruct (length keys =? 0) eqn:E0.
  { apply Nat.eqb_eq in E0. exists keys, values, (seq 0 (length keys)). split; [done|]. split; [done|]. split; [apply Moved_id|]. split; [rewrite <- HL; apply Moved_id|].
    intros i j x y _ Hx. apply lookup_lt_Some in Hx. lia. }
  apply Nat.eqb_neq in E0. assert (keys <> []) as Hne by (by intros ->).
  destruct (C79_minmax ltb SW keys ids p Hne Hp) as (lo & hi & -> & [Hlo1 Hlo] & [Hhi1 Hhi]). simpl.
  assert (forall k, k ∈ keys -> ltb k lo = false /\ ltb hi k = false) as Hrange by (intros k Hk; split; [apply Hlo|apply Hhi]; by right).
  destruct (eqb lo hi) eqn:Ee.
  { apply Heq in Ee as [E1 E2]. exists keys, values, (seq 0 (length keys)). split; [done|]. split; [done|]. split; [apply Moved_id|]. split; [rewrite <- HL; apply Moved_id|].
    intros i j x y _ Hx Hy. apply elem_of_list_lookup_2 in Hx, Hy. destruct (Hrange x Hx) as [X1 X2], (Hrange y Hy) as [Y1 Y2].
    eapply (sw_incomp _ SW); [exact Y1|]. eapply (sw_incomp _ SW); [exact E1|]. exact X2. }
  assert (exists k, k ∈ keys) as [k0 Hk0] by (destruct keys as [|k ?]; [done|exists k; left]).
  assert (ltb hi lo = false) as Hle by (eapply (sw_incomp _ SW); [apply (Hrange k0 Hk0)|apply (Hrange k0 Hk0)]).
  assert (ltb lo hi = true) as Hlt. { destruct (ltb lo hi) eqn:E; [done|]. assert (eqb lo hi = true) as X by (by apply Heq). congruence. }
  assert (2 <= length keys) as H2.
  { destruct keys as [|k [|k' keys]]; [done| |simpl; lia]. exfalso. assert (Hk : k ∈ [k]) by left. destruct (Hids k Hk) as [I1 I2]. destruct (Hrange k Hk) as [R1 R2].
    assert (ltb lo k = false) as A. { apply elem_of_cons in Hlo1 as [->|Hlo1]; [done|]. apply elem_of_list_singleton in Hlo1 as ->. apply (sw_irrefl _ SW). }
    assert (ltb k hi = false) as B. { apply elem_of_cons in Hhi1 as [->|Hhi1]; [done|]. apply elem_of_list_singleton in Hhi1 as ->. apply (sw_irrefl _ SW). }
    pose proof (sw_incomp _ SW _ _ _ A B). congruence. }
  assert (1 <= length keys / 2) as Hb1 by (apply (Nat.div_le_lower_bound _ 2 1); lia).
  assert ((length keys / 2 =? 0) = false) as -> by (apply Nat.eqb_neq; lia). rewrite Hlt. simpl orb. cbn iota.
  set (nb := length keys / 2) in *. set (f := bin nb lo hi).
  assert (forall x, x ∈ keys -> f x <= nb) as Hf. { intros x Hx. destruct (Hrange x Hx). apply (Hbin nb lo hi x x); try done. apply (sw_irrefl _ SW). }
  unfold bin_sort. assert (forallb (fun k => f k <=? nb) keys = true) as ->. { apply forallb_forall. intros x Hx. apply Nat.leb_le, Hf. by apply elem_of_list_In. }
  set (g := fun i => match keys !! i with Some k => f k | None => S nb end).
  assert (forall b, b ∈ seq 0 (S nb) -> List.filter (fun i => match keys !! i with Some k => f k =? b | None => false end) order = List.filter (fun i => g i =? b) order) as Hg.
  { intros b Hb. apply filter_ext. intros i. unfold g. destruct (keys !! i); [done|]. symmetry. apply Nat.eqb_neq. apply elem_of_seq in Hb. lia. }
  set (perm := concat _). assert (perm = concat (map (fun b => within (List.filter (fun i => g i =? b) order)) (seq 0 (S nb)))) as Eperm.
  { unfold perm. f_equal. apply map_ext_in. intros b Hb. apply elem_of_list_In in Hb. by rewrite Hg. }
  assert (perm ≡ₚ seq 0 (length keys)) as Hperm.
  { rewrite Eperm. etransitivity; [|exact Ho]. apply bins_perm; [intros l; apply Hwithin|]. intros i Hi. unfold g. rewrite Ho in Hi. apply elem_of_seq in Hi.
    destruct (lookup_lt_is_Some_2 keys i) as [k Hk]; [lia|]. rewrite Hk. apply elem_of_list_lookup_2 in Hk. specialize (Hf k Hk). lia. }
  assert (forall i, i ∈ perm -> i < length keys) as Hpr. { intros i Hi. rewrite Hperm in Hi. apply elem_of_seq in Hi. lia. }
  simpl. fold perm. destruct (Moved_permuted perm keys Hpr) as (keys' & EK & HK). destruct (Moved_permuted perm values) as (values' & EV & HV); [by rewrite HL|].
  rewrite EK. simpl. rewrite EV. simpl. exists keys', values', perm. split; [done|]. split; [done|]. split; [done|]. split; [done|].
  assert (forall i j a b x y, i < j -> perm !! i = Some a -> perm !! j = Some b -> keys !! a = Some x -> keys !! b = Some y -> ltb y x = false) as HA.
  2: { intros i j x y Hij Hx Hy. destruct HK as [HKL HKM]. pose proof (lookup_lt_Some _ _ _ Hx) as Li. pose proof (lookup_lt_Some _ _ _ Hy) as Lj. rewrite HKL in Li, Lj.
    destruct (lookup_lt_is_Some_2 perm i Li) as [a Ha]. destruct (lookup_lt_is_Some_2 perm j Lj) as [b Hb]. rewrite (HKM _ _ Ha) in Hx. rewrite (HKM _ _ Hb) in Hy. by apply (HA i j a b). }
  assert (forall l i, i ∈ within l <-> i ∈ l) as Hwe. { intros l i. destruct (Hwithin l) as [E _]. by rewrite E. }
  clear Hperm Hpr EK EV HK HV keys' values'. rewrite Eperm. clear Eperm perm. 
  assert (forall m s, (forall i, i ∈ concat (map (fun b => within (List.filter (fun i => g i =? b) order)) (seq s m)) -> s <= g i) /\
    (forall i j a b x y, i < j -> concat (map (fun b => within (List.filter (fun i => g i =? b) order)) (seq s m)) !! i = Some a ->
      concat (map (fun b => within (List.filter (fun i => g i =? b) order)) (seq s m)) !! j = Some b -> keys !! a = Some x -> keys !! b = Some y -> ltb y x = false)) as HI; [|apply HI].
  intros m. induction m as [|m IH]; intros s; [split; [intros i Hi; by apply elem_of_nil in Hi|intros i j a b x y _ Ha; done]|].
  cbn [seq map concat]. destruct (IH (S s)) as [I1 I2]. split.
  - intros i Hi. apply elem_of_app in Hi as [Hi|Hi]; [apply Hwe, elem_filter in Hi as [_ E]; apply Nat.eqb_eq in E; lia|]. apply I1 in Hi. lia.
  - intros i j a b x y Hij Ha Hb Hx Hy. apply lookup_app_Some in Ha as [Ha|[La Ha]], Hb as [Hb|[Lb Hb]].
    + eapply (proj2 (Hwithin _) i j a b); done.
    + apply elem_of_list_lookup_2 in Ha, Hb. apply Hwe, elem_filter in Ha as [_ E]. apply Nat.eqb_eq in E. apply I1 in Hb. unfold g in E, Hb. rewrite Hx in E. rewrite Hy in Hb.
      destruct (ltb y x) eqn:Eyx; [|done]. exfalso. apply elem_of_list_lookup_2 in Hx, Hy. destruct (Hrange x Hx) as [X1 X2], (Hrange y Hy) as [Y1 Y2].
      assert (ltb x y = false) as Exy. { destruct (ltb x y) eqn:E'; [|done]. pose proof (sw_trans _ SW _ _ _ Eyx E') as T. by rewrite (sw_irrefl _ SW) in T. }
      assert (f y <= f x <= nb) as Hyx by (by apply Hbin). lia.
    + apply lookup_lt_Some in Hb. lia.
    + eapply (I2 (i - _) (j - _)); [|exact Ha|exact Hb|exact Hx|exact Hy]. lia.
Qed.
End Proofs.
Print Assumptions C99_sort_by_key.

(** sortObjects returns the permutation that sorted the view. *)
Theorem C99_sort_objects : forall {K} (ltb eqb : K -> K -> bool), StrictWeak ltb -> (forall x y, eqb x y = true <-> ltb x y = false /\ ltb y x = false) ->
  forall ids p bin order within keys, plan_of (length keys) p -> order ≡ₚ seq 0 (length keys) ->
  (forall k, k ∈ keys -> ltb ids.1 k = false /\ ltb k ids.2 = false) ->
  (forall n lo hi x y, 1 <= n -> ltb lo hi = true -> ltb x lo = false -> ltb hi y = false -> ltb y x = false -> bin n lo hi x <= bin n lo hi y <= n) ->
  (forall l, within l ≡ₚ l /\ (forall i j a b x y, i < j -> within l !! i = Some a -> within l !! j = Some b -> keys !! a = Some x -> keys !! b = Some y -> ltb y x = false)) ->
  exists keys' permute, sort_objects ltb eqb ids p bin order within keys = Some (keys', permute) /\ permute ≡ₚ seq 0 (length keys) /\ Moved permute keys keys' /\ Ascending ltb keys'.
Proof.
  intros K ltb eqb SW Heq ids p bin order within keys Hp Ho Hids Hbin Hw. unfold sort_objects.
  destruct (C99_sort_by_key ltb eqb SW Heq ids p bin order within keys (seq 0 (length keys)) (seq_length _ _) Hp Ho Hids Hbin Hw) as (keys' & permute & perm & E & HP & HK & [HL HV] & HA).
  assert (permute = perm) as ->.
  { apply list_eq. intros i. destruct (perm !! i) as [q|] eqn:Eq.
    - rewrite (HV _ _ Eq). apply lookup_seq. apply elem_of_list_lookup_2 in Eq. rewrite HP in Eq. apply elem_of_seq in Eq. lia.
    - apply lookup_ge_None in Eq. apply lookup_ge_None. lia. }
  by exists keys', perm.
Qed.
Print Assumptions C99_sort_objects.

(** The bins for integers respect the order. *)
Theorem C99_bins : forall n lo hi x y, 1 <= n -> (lo <? hi)%Z = true -> (x <? lo)%Z = false -> (hi <? y)%Z = false -> (y <? x)%Z = false -> bin_op n lo hi x <= bin_op n lo hi y <= n.
Proof.
  intros n lo hi x y Hn H1%Z.ltb_lt H2%Z.ltb_ge H3%Z.ltb_ge H4%Z.ltb_ge. unfold bin_op. destruct (hi - lo <=? Z.of_nat n)%Z eqn:E.
  - apply Z.leb_le in E. lia.
  - assert (Z.of_nat n * (x - lo) / (hi - lo) <= Z.of_nat n * (y - lo) / (hi - lo))%Z as A by (apply Z.div_le_mono; nia).
    assert (Z.of_nat n * (y - lo) / (hi - lo) <= Z.of_nat n)%Z as B by (apply Z.div_le_upper_bound; nia).
    assert (0 <= Z.of_nat n * (x - lo) / (hi - lo))%Z as C by (apply Z.div_pos; nia). lia.
Qed.
Print Assumptions C99_bins.

(** Integer keys: everything the theorem asks for can be had. *)
Definition by_key (keys : list Z) (a b : nat) : Prop := (default 0 (keys !! a) <= default 0 (keys !! b))%Z.
Global Instance by_key_dec keys a b : Decision (by_key keys a b).
Proof. unfold by_key. apply _. Defined.
Theorem C99_integer_keys : forall lo hi p order keys (values : list nat), length values = length keys -> plan_of (length keys) p -> order ≡ₚ seq 0 (length keys) ->
  Forall (fun k => (lo <= k <= hi)%Z) keys ->
  exists keys' values' perm, sort_by_key Z.ltb Z.eqb (hi, lo) p bin_op order (merge_sort (by_key keys)) keys values = Some (keys', values') /\
    perm ≡ₚ seq 0 (length keys) /\ Moved perm keys keys' /\ Moved perm values values' /\ Ascending Z.ltb keys'.
Proof.
  intros lo hi p order keys values HL Hp Ho Hb. apply C99_sort_by_key; try done.
  - apply Z_SW.
  - intros x y. rewrite Z.eqb_eq, !Z.ltb_ge. lia.
  - intros k Hk. rewrite Forall_forall in Hb. specialize (Hb k Hk). cbn. rewrite !Z.ltb_ge. lia.
  - intros. by apply C99_bins.
  - intros l. split; [apply merge_sort_Permutation|]. intros i j a b x y Hij Ha Hb' Hx Hy.
    assert (StronglySorted (by_key keys) (merge_sort (by_key keys) l)) as HS.
    { apply StronglySorted_merge_sort; [intros u v w; unfold by_key; lia|intros u v; unfold by_key; lia]. }
    assert (by_key keys a b) as H; [|unfold by_key in H; rewrite Hx, Hy in H; cbn in H; apply Z.ltb_ge; exact H].
    clear - HS Hij Ha Hb'. revert i j Hij Ha Hb'. induction HS as [|c m HS IH HF]; intros i j Hij Ha Hb; [done|].
    destruct j as [|j]; [lia|]. destruct i as [|i]; simpl in *; [injection Ha as ->; rewrite Forall_forall in HF; apply HF; by eapply elem_of_list_lookup_2|]. eapply IH; [|exact Ha|exact Hb]. lia.
Qed.
Print Assumptions C99_integer_keys.

(** Seven keys; the iterations take their places in the bins in another order than the indices. *)
Definition sort_plan (n : nat) : rplan := foldl P_apply P_start (seq 0 n).
Example C99_example : plan_of 7 (sort_plan 7) /\ [6; 2; 0; 5; 1; 3; 4] ≡ₚ seq 0 7 /\ Forall (fun k => (-2147483648 <= k <= 2147483647)%Z) [50; 3; 9; 3; 4; -7; 8]%Z /\
  sort_by_key Z.ltb Z.eqb (2147483647, -2147483648)%Z (sort_plan 7) bin_op [6; 2; 0; 5; 1; 3; 4] (merge_sort (by_key [50; 3; 9; 3; 4; -7; 8]%Z)) [50; 3; 9; 3; 4; -7; 8]%Z [0; 1; 2; 3; 4; 5; 6]
    = Some ([-7; 3; 3; 4; 8; 9; 50]%Z, [5; 3; 1; 4; 6; 2; 0]) /\
  sort_by_key Z.ltb Z.eqb (2147483647, -2147483648)%Z (sort_plan 3) bin_op [0; 1; 2] (merge_sort (by_key [4; 4; 4]%Z)) [4; 4; 4]%Z [0; 1; 2] = Some ([4; 4; 4]%Z, [0; 1; 2]).
Proof.
  split; [vm_compute; reflexivity|]. split; [apply (NoDup_Permutation); [by apply (bool_decide_unpack _); vm_compute|apply NoDup_ListNoDup, seq_NoDup|]|split; [rewrite !Forall_cons; split_and!; try lia; apply Forall_nil_2|split; vm_compute; reflexivity]].
  intros x. rewrite elem_of_seq, !elem_of_cons, elem_of_nil. lia.
Qed.
