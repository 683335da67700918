(** C79: the parallel reductions give the same, correct result however the iterations are split and combined. *)
From Coq Require Import SpecFloat.
From Verif Require Import Base HeapSpec CrsModel ReorderModel ReduceModel GeomOps IeeeSpec IeeeModel.
From Verif Require DistributorModel DistributorProof.

(** Spec: the least and the greatest of a list, under a comparison that may have ties. *)
Definition Least {T} (ltb : T -> T -> bool) (l : list T) (m : T) : Prop := m ∈ l /\ forall x, x ∈ l -> ltb x m = false.
Definition Greatest {T} (ltb : T -> T -> bool) (l : list T) (m : T) : Prop := m ∈ l /\ forall x, x ∈ l -> ltb m x = false.

Section Generic.
Context {A : Type} (functor : nat -> A -> option A) (join : A -> A -> option A) (init : A).
(** Induction over plans: an invariant of partial results and the iterations they cover. *)
Lemma plan_ind (I : list nat -> A -> Prop) (ok : nat -> Prop) :
  I [] init ->
  (forall l i u, ok i -> I l u -> exists w, functor i u = Some w /\ I (l ++ [i]) w) ->
  (forall l k u w, I l u -> I k w -> exists z, join u w = Some z /\ I (l ++ k) z) ->
  forall p, Forall ok (iterations p) -> exists r, run_plan functor join init p = Some r /\ I (iterations p) r.
Proof.
  intros H0 Hf Hj p. induction p as [|p IH i|d IHd s IHs]; simpl; intros Hok.
  - by exists init.
  - apply Forall_app in Hok as [H1 H2]. apply Forall_cons in H2 as [H2 _]. destruct (IH H1) as (u & -> & Hu). simpl. by apply Hf.
  - apply Forall_app in Hok as [H1 H2]. destruct (IHd H1) as (u & -> & Hu). destruct (IHs H2) as (w & -> & Hw). simpl. by apply Hj.
Qed.
End Generic.
Lemma plan_range n p : plan_of n p -> Forall (fun i => i < n) (iterations p).
Proof. intros H. apply Forall_forall. intros i Hi. rewrite H in Hi. apply elem_of_seq in Hi. lia. Qed.

Section MinMax.
Context {T : Type} (ltb : T -> T -> bool) (SW : StrictWeak ltb) (v : list T).
(** the values of some iterations *)
Definition at_ (l : list nat) (x : T) : Prop := exists i, i ∈ l /\ v !! i = Some x.
Lemma at_app l k x : at_ (l ++ k) x <-> at_ l x \/ at_ k x.
Proof. unfold at_. setoid_rewrite elem_of_app. naive_solver. Qed.
Lemma at_one i x : at_ [i] x <-> v !! i = Some x.
Proof. unfold at_. setoid_rewrite elem_of_list_singleton. naive_solver. Qed.
Lemma at_plan p x : plan_of (length v) p -> at_ (iterations p) x <-> x ∈ v.
Proof.
  intros Hp. unfold at_. rewrite elem_of_list_lookup. split; intros (i & H); exists i; [naive_solver|]. split; [|done]. rewrite Hp. apply elem_of_seq.
  apply lookup_lt_Some in H. lia.
Qed.
Definition lowest (id : T) (l : list nat) (m : T) : Prop := (m = id \/ at_ l m) /\ ltb id m = false /\ forall x, at_ l x -> ltb x m = false.
Definition highest (id : T) (l : list nat) (m : T) : Prop := (m = id \/ at_ l m) /\ ltb m id = false /\ forall x, at_ l x -> ltb m x = false.
Lemma asym x y : ltb x y = true -> ltb y x = false.
Proof. intros H. destruct (ltb y x) eqn:E; [|done]. pose proof (sw_trans _ SW _ _ _ H E) as Hc. by rewrite (sw_irrefl _ SW) in Hc. Qed.
Lemma lowest_start id : lowest id [] id.
Proof. split; [by left|]. split; [apply SW|]. intros x (i & Hi & _). by apply elem_of_nil in Hi. Qed.
Lemma highest_start id : highest id [] id.
Proof. split; [by left|]. split; [apply SW|]. intros x (i & Hi & _). by apply elem_of_nil in Hi. Qed.
Lemma lowest_apply id l i u val : v !! i = Some val -> lowest id l u -> lowest id (l ++ [i]) (if ltb val u then val else u).
Proof.
  intros Hv (H1 & H2 & H3). unfold lowest. setoid_rewrite at_app. setoid_rewrite at_one. destruct (ltb val u) eqn:E.
  - apply asym in E. split; [auto|]. split; [by eapply (sw_incomp _ SW)|]. intros x [Hx|Hx]; [eapply (sw_incomp _ SW); [by apply H3|done]|].
    assert (x = val) as -> by congruence. apply SW.
  - split; [naive_solver|]. split; [done|]. intros x [Hx|Hx]; [by apply H3|]. by assert (x = val) as -> by congruence.
Qed.
Lemma highest_apply id l i u val : v !! i = Some val -> highest id l u -> highest id (l ++ [i]) (if ltb u val then val else u).
Proof.
  intros Hv (H1 & H2 & H3). unfold highest. setoid_rewrite at_app. setoid_rewrite at_one. destruct (ltb u val) eqn:E.
  - apply asym in E. split; [auto|]. split; [by eapply (sw_incomp _ SW)|]. intros x [Hx|Hx]; [eapply (sw_incomp _ SW); [done|by apply H3]|].
    assert (x = val) as -> by congruence. apply SW.
  - split; [naive_solver|]. split; [done|]. intros x [Hx|Hx]; [by apply H3|]. by assert (x = val) as -> by congruence.
Qed.
Lemma lowest_join id l k u w : lowest id l u -> lowest id k w -> lowest id (l ++ k) (if ltb w u then w else u).
Proof.
  intros (H1 & H2 & H3) (K1 & K2 & K3). unfold lowest. setoid_rewrite at_app. destruct (ltb w u) eqn:E.
  - apply asym in E. split; [naive_solver|]. split; [done|]. intros x [Hx|Hx]; [eapply (sw_incomp _ SW); [by apply H3|done]|by apply K3].
  - split; [naive_solver|]. split; [done|]. intros x [Hx|Hx]; [by apply H3|]. eapply (sw_incomp _ SW); [by apply K3|done].
Qed.
Lemma highest_join id l k u w : highest id l u -> highest id k w -> highest id (l ++ k) (if ltb u w then w else u).
Proof.
  intros (H1 & H2 & H3) (K1 & K2 & K3). unfold highest. setoid_rewrite at_app. destruct (ltb u w) eqn:E.
  - apply asym in E. split; [naive_solver|]. split; [done|]. intros x [Hx|Hx]; [eapply (sw_incomp _ SW); [done|by apply H3]|by apply K3].
  - split; [naive_solver|]. split; [done|]. intros x [Hx|Hx]; [by apply H3|]. eapply (sw_incomp _ SW); [done|by apply K3].
Qed.
Lemma lowest_least id p m : plan_of (length v) p -> lowest id (iterations p) m -> Least ltb (id :: v) m.
Proof.
  intros Hp (H1 & H2 & H3). setoid_rewrite (fun x => at_plan p x Hp) in H3. rewrite (at_plan p m Hp) in H1. split; [apply elem_of_cons; done|].
  intros x [->|Hx]%elem_of_cons; auto.
Qed.
Lemma highest_greatest id p m : plan_of (length v) p -> highest id (iterations p) m -> Greatest ltb (id :: v) m.
Proof.
  intros Hp (H1 & H2 & H3). setoid_rewrite (fun x => at_plan p x Hp) in H3. rewrite (at_plan p m Hp) in H1. split; [apply elem_of_cons; done|].
  intros x [->|Hx]%elem_of_cons; auto.
Qed.
Lemma nonempty : v <> [] -> (length v =? 0) = false.
Proof. intros H. apply Nat.eqb_neq. by destruct v. Qed.

(** The results, for every comparison with ties, every view, every plan and any identities: they are in the view unless all of it is
    beyond the identity. *)
Theorem C79_minmax : forall ids p, v <> [] -> plan_of (length v) p ->
  exists lo hi, minmax_reduce ltb v ids p = Some (lo, hi) /\ Least ltb (ids.1 :: v) lo /\ Greatest ltb (ids.2 :: v) hi.
Proof.
  intros [a b] p Hne Hp. unfold minmax_reduce. rewrite nonempty by done.
  destruct (plan_ind (minmax_functor ltb v) (minmax_join ltb) (a, b) (fun l u => lowest a l u.1 /\ highest b l u.2) (fun i => i < length v))
    with (p := p) as ([lo hi] & E & H1 & H2).
  - split; [apply lowest_start|apply highest_start].
  - intros l i u Hi [H1 H2]. unfold minmax_functor. destruct (lookup_lt_is_Some_2 _ _ Hi) as [val Hv]. rewrite Hv. simpl. eexists. split; [done|]. simpl.
    split; [by apply lowest_apply|by apply highest_apply].
  - intros l k u w [H1 H2] [K1 K2]. unfold minmax_join. eexists. split; [done|]. simpl. split; [by apply lowest_join|by apply highest_join].
  - by apply plan_range.
  - exists lo, hi. split; [done|]. split; [by eapply lowest_least|by eapply highest_greatest].
Qed.
Theorem C79_min : forall id p, v <> [] -> plan_of (length v) p -> exists m, min_reduce ltb v id p = Some m /\ Least ltb (id :: v) m.
Proof.
  intros id p Hne Hp. unfold min_reduce. rewrite nonempty by done. match goal with |- exists m, ?r = Some m /\ _ => enough (exists m, r = Some m /\ lowest id (iterations p) m) as (m & E & Hm) end.
  { exists m. split; [done|]. by eapply lowest_least. }
  apply (plan_ind _ _ _ (lowest id) (fun i => i < length v)).
  - apply lowest_start.
  - intros l i u Hi H1. destruct (lookup_lt_is_Some_2 _ _ Hi) as [val Hv]. rewrite Hv. simpl. eexists. split; [done|]. by apply lowest_apply.
  - intros l k u w H1 K1. eexists. split; [done|]. by apply lowest_join.
  - by apply plan_range.
Qed.
Theorem C79_max : forall id p, v <> [] -> plan_of (length v) p -> exists m, max_reduce ltb v id p = Some m /\ Greatest ltb (id :: v) m.
Proof.
  intros id p Hne Hp. unfold max_reduce. rewrite nonempty by done. match goal with |- exists m, ?r = Some m /\ _ => enough (exists m, r = Some m /\ highest id (iterations p) m) as (m & E & Hm) end.
  { exists m. split; [done|]. by eapply highest_greatest. }
  apply (plan_ind _ _ _ (highest id) (fun i => i < length v)).
  - apply highest_start.
  - intros l i u Hi H1. destruct (lookup_lt_is_Some_2 _ _ Hi) as [val Hv]. rewrite Hv. simpl. eexists. split; [done|]. by apply highest_apply.
  - intros l k u w H1 K1. eexists. split; [done|]. by apply highest_join.
  - by apply plan_range.
Qed.
End MinMax.

(** int: the identities are its largest and smallest value. *)
Definition is_int (x : Z) : Prop := (-2147483648 <= x < 2147483648)%Z.
Notation int_ids := (2147483647, -2147483648)%Z.
Lemma Z_SW : StrictWeak Z.ltb.
Proof. split; intros *; rewrite ?Z.ltb_lt, ?Z.ltb_ge; lia. Qed.
Theorem C79_minmax_int : forall v p, v <> [] -> Forall is_int v -> plan_of (length v) p ->
  exists lo hi, minmax_reduce Z.ltb v int_ids p = Some (lo, hi) /\ lo ∈ v /\ hi ∈ v /\ forall x, x ∈ v -> (lo <= x <= hi)%Z.
Proof.
  intros v p Hne Hv Hp. destruct (C79_minmax Z.ltb Z_SW v int_ids p Hne Hp) as (lo & hi & E & [H1 H2] & [K1 K2]). simpl in *. rewrite Forall_forall in Hv. unfold is_int in Hv.
  destruct v as [|y v]; [done|]. assert (Hy : y ∈ y :: v) by left. exists lo, hi. split; [done|]. split; [|split].
  - apply elem_of_cons in H1 as [->|H1]; [|done]. pose proof (H2 y ltac:(by right)) as Hl. apply Z.ltb_ge in Hl. specialize (Hv y Hy). by assert (y = 2147483647)%Z as -> by lia.
  - apply elem_of_cons in K1 as [->|K1]; [|done]. pose proof (K2 y ltac:(by right)) as Hl. apply Z.ltb_ge in Hl. specialize (Hv y Hy). by assert (y = -2147483648)%Z as -> by lia.
  - intros x Hx. pose proof (H2 x ltac:(by right)) as A%Z.ltb_ge. pose proof (K2 x ltac:(by right)) as B%Z.ltb_ge. lia.
Qed.
Theorem C79_max_int : forall v p, v <> [] -> Forall is_int v -> plan_of (length v) p ->
  exists m, max_reduce Z.ltb v (-2147483648)%Z p = Some m /\ m ∈ v /\ forall x, x ∈ v -> (x <= m)%Z.
Proof.
  intros v p Hne Hv Hp. destruct (C79_max Z.ltb Z_SW v (-2147483648)%Z p Hne Hp) as (m & E & [K1 K2]). rewrite Forall_forall in Hv. unfold is_int in Hv.
  destruct v as [|y v]; [done|]. assert (Hy : y ∈ y :: v) by left. exists m. split; [done|]. split.
  - apply elem_of_cons in K1 as [->|K1]; [|done]. pose proof (K2 y ltac:(by right)) as Hl. apply Z.ltb_ge in Hl. specialize (Hv y Hy). by assert (y = -2147483648)%Z as -> by lia.
  - intros x Hx. pose proof (K2 x ltac:(by right)) as B%Z.ltb_ge. lia.
Qed.

(** The reductions of the Distributor, which DistributorModel has as sequential functions: -1 marks an item already placed. *)
Definition rank_int (d : option nat) : Z := match d with Some r => Z.of_nat r | None => (-1)%Z end.
Theorem C79_ranks : forall dup p, dup <> [] -> Forall (fun d => is_int (rank_int d)) dup -> plan_of (length dup) p ->
  max_reduce Z.ltb (map rank_int dup) (-2147483648)%Z p = Some (rank_int (DistributorModel.max_reduce dup)).
Proof.
  intros dup p Hne Hb Hp. destruct (C79_max_int (map rank_int dup) p) as (m & E & H1 & H2); [by destruct dup|by apply Forall_fmap|by rewrite map_length|].
  rewrite E. f_equal. pose proof (DistributorProof.max_reduce_spec dup) as HS. apply elem_of_list_fmap in H1 as (d & -> & Hd).
  destruct (DistributorModel.max_reduce dup) as [r|].
  - destruct HS as [A B]. pose proof (H2 (rank_int (Some r)) ltac:(by apply (elem_of_list_fmap_1 rank_int))) as Hr. simpl in Hr. destruct d as [x|]; simpl in *; [|lia].
    specialize (B x Hd). lia.
  - by rewrite (HS d Hd).
Qed.
Lemma min_of_spec r rs : DistributorModel.min_of r rs ∈ r :: rs /\ forall x, x ∈ r :: rs -> DistributorModel.min_of r rs <= x.
Proof.
  unfold DistributorModel.min_of. induction rs as [|y rs [H1 H2]]; simpl; [split; [left|intros x ->%elem_of_list_singleton; done]|]. split.
  - destruct (Nat.min_spec y (foldr Nat.min r rs)) as [[_ ->]|[_ ->]]; [right; left|]. apply elem_of_cons in H1 as [->|H1]; [left|by right; right].
  - intros x [->|[->|Hx]%elem_of_cons]%elem_of_cons; [specialize (H2 r ltac:(left))| |specialize (H2 x ltac:(by right))]; lia.
Qed.
Lemma max_of_spec r rs : DistributorModel.max_of r rs ∈ r :: rs /\ forall x, x ∈ r :: rs -> x <= DistributorModel.max_of r rs.
Proof.
  unfold DistributorModel.max_of. induction rs as [|y rs [H1 H2]]; simpl; [split; [left|intros x ->%elem_of_list_singleton; done]|]. split.
  - destruct (Nat.max_spec y (foldr Nat.max r rs)) as [[_ ->]|[_ ->]]; [|right; left]. apply elem_of_cons in H1 as [->|H1]; [left|by right; right].
  - intros x [->|[->|Hx]%elem_of_cons]%elem_of_cons; [specialize (H2 r ltac:(left))| |specialize (H2 x ltac:(by right))]; lia.
Qed.
Theorem C79_destinations : forall r rs p, Forall (fun x => is_int (Z.of_nat x)) (r :: rs) -> plan_of (length (r :: rs)) p ->
  minmax_reduce Z.ltb (map Z.of_nat (r :: rs)) int_ids p = Some (Z.of_nat (DistributorModel.min_of r rs), Z.of_nat (DistributorModel.max_of r rs)).
Proof.
  intros r rs p Hb Hp. destruct (C79_minmax_int (map Z.of_nat (r :: rs)) p) as (lo & hi & E & H1 & H2 & H3); [done|by apply Forall_fmap|by rewrite map_length|].
  rewrite E. destruct (min_of_spec r rs) as [A1 A2]. destruct (max_of_spec r rs) as [B1 B2].
  pose proof (H3 _ (elem_of_list_fmap_1 Z.of_nat _ _ A1)). pose proof (H3 _ (elem_of_list_fmap_1 Z.of_nat _ _ B1)).
  apply elem_of_list_fmap in H1 as (x & -> & Hx). apply elem_of_list_fmap in H2 as (y & -> & Hy). specialize (A2 x Hx). specialize (B2 y Hy).
  f_equal. f_equal; lia.
Qed.

(** Sums. *)
Section Sub.
Context {A : Type} (functor : nat -> A -> option A) (join : A -> A -> option A) (init : A).
Lemma plan_ind_sub (I : list nat -> A -> Prop) (all : list nat) :
  I [] init ->
  (forall l i u, l ++ [i] ⊆+ all -> I l u -> exists w, functor i u = Some w /\ I (l ++ [i]) w) ->
  (forall l k u w, l ++ k ⊆+ all -> I l u -> I k w -> exists z, join u w = Some z /\ I (l ++ k) z) ->
  forall p, iterations p ⊆+ all -> exists r, run_plan functor join init p = Some r /\ I (iterations p) r.
Proof.
  intros H0 Hf Hj p. induction p as [|p IH i|d IHd s IHs]; simpl; intros Hs.
  - by exists init.
  - destruct IH as (u & -> & Hu); [etrans; [|done]; apply submseteq_inserts_r; done|]. simpl. by apply Hf.
  - destruct IHd as (u & -> & Hu); [etrans; [|done]; apply submseteq_inserts_r; done|]. destruct IHs as (w & -> & Hw); [etrans; [|done]; apply submseteq_inserts_l; done|].
    simpl. by apply Hj.
Qed.
End Sub.
Notation sumw f l := (sum_list (map f l)).
Lemma sumw_app (f : nat -> nat) l k : sumw f (l ++ k) = sumw f l + sumw f k.
Proof. induction l as [|a l IH]; simpl; lia. Qed.
Lemma sumw_perm (f : nat -> nat) l k : l ≡ₚ k -> sumw f l = sumw f k.
Proof. induction 1; simpl; lia. Qed.
Lemma sumw_sub (f : nat -> nat) l k : l ⊆+ k -> sumw f l <= sumw f k.
Proof. intros [k' H]%submseteq_Permutation. rewrite (sumw_perm f _ _ H), sumw_app. lia. Qed.
Lemma sum_plan (f : nat -> nat) functor n p : plan_of n p -> (Z.of_nat (sumw f (seq 0 n)) < 2147483648)%Z ->
  (forall i u, i < n -> is_int (u + Z.of_nat (f i)) -> functor i u = Some (u + Z.of_nat (f i))%Z) ->
  run_plan functor add_int 0%Z p = Some (Z.of_nat (sumw f (seq 0 n))).
Proof.
  intros Hp Hb Hf. destruct (plan_ind_sub functor add_int 0%Z (fun l u => u = Z.of_nat (sumw f l)) (seq 0 n)) with (p := p) as (r & E & Hr).
  - done.
  - intros l i u Hs ->. pose proof (sumw_sub f _ _ Hs) as Hle. rewrite sumw_app in Hle. simpl in Hle. eexists. split; [apply Hf|].
    + assert (i ∈ seq 0 n) as Hi%elem_of_seq; [|lia]. eapply elem_of_submseteq; [|exact Hs]. apply elem_of_app. right. left.
    + unfold is_int. lia.
    + rewrite sumw_app. simpl. lia.
  - intros l k u w Hs -> ->. pose proof (sumw_sub f _ _ Hs) as Hle. rewrite sumw_app in Hle. exists (Z.of_nat (sumw f (l ++ k))). rewrite sumw_app. split; [|done].
    unfold add_int. rewrite (proj2 (Z.leb_le _ _)), (proj2 (Z.ltb_lt _ _)) by lia. simpl. f_equal. lia.
  - by rewrite Hp.
  - rewrite E, Hr. do 2 f_equal. by apply sumw_perm.
Qed.
Lemma sum_lookup l : sumw (fun i => default 0 (l !! i)) (seq 0 (length l)) = sum_list l.
Proof.
  induction l as [|a l IH]; [done|]. cbn [length seq map sum_list foldr]. rewrite <- seq_shift, map_map. simpl. simpl in IH. lia.
Qed.
Theorem C79_count : forall counts p, plan_of (length counts) p -> (Z.of_nat (sum_list counts) < 2147483648)%Z ->
  count_reduce counts p = Some (Z.of_nat (sum_list counts)).
Proof.
  intros counts p Hp Hb. rewrite <- sum_lookup in *. apply sum_plan; [done..|]. intros i u Hi Hu. destruct (lookup_lt_is_Some_2 _ _ Hi) as [c Hc]. rewrite Hc in *. simpl in *.
  unfold add_int, is_int in *. by rewrite (proj2 (Z.leb_le _ _)), (proj2 (Z.ltb_lt _ _)) by lia.
Qed.
(** ** C79: and the bound is needed: from 2^31 on the count is undefined whatever the plan. *)
Lemma count_plan counts p : forall r, count_reduce counts p = Some r ->
  r = Z.of_nat (sumw (fun i => default 0 (counts !! i)) (iterations p)) /\ (r < 2147483648)%Z.
Proof.
  unfold count_reduce. assert (Hadd : forall a b r, add_int a b = Some r -> r = (a + b)%Z /\ (r < 2147483648)%Z).
  { intros a b r. unfold add_int. destruct ((-2147483648 <=? a + b) && (a + b <? 2147483648))%Z eqn:E; [|done].
    apply andb_true_iff in E as [_ E]. apply Z.ltb_lt in E. intros [= <-]. done. }
  induction p as [|p IH i|d IHd s IHs]; intros r H; cbn [run_plan iterations] in *.
  - injection H as <-. done.
  - destruct (run_plan _ _ _ p) as [u|]; [|done]. simpl in H. destruct (counts !! i) as [c|] eqn:E; [|done]. simpl in H.
    destruct (IH u eq_refl) as [-> _]. apply Hadd in H as [-> ?]. split; [|done].
    rewrite sumw_app. simpl. rewrite E. simpl. lia.
  - destruct (run_plan _ _ _ d) as [u|]; [|done]. simpl in H. destruct (run_plan _ _ _ s) as [v|]; [|done]. simpl in H.
    destruct (IHd u eq_refl) as [-> _]. destruct (IHs v eq_refl) as [-> _]. apply Hadd in H as [-> ?]. split; [|done].
    rewrite sumw_app. lia.
Qed.
Theorem C79_count_undefined : forall counts p, plan_of (length counts) p -> (2147483648 <= Z.of_nat (sum_list counts))%Z ->
  count_reduce counts p = None.
Proof.
  intros counts p Hp Hb. destruct (count_reduce counts p) as [r|] eqn:E; [|done]. exfalso.
  apply count_plan in E as [-> E]. assert (sumw (fun i => default 0 (counts !! i)) (iterations p) = sum_list counts) as Hs; [|lia].
  rewrite <- (sum_lookup counts). by apply sumw_perm.
Qed.
Example C79_count_undefined_example : forall big, Z.of_nat big = 2147483647%Z ->
  plan_of (length [big; 1]) (P_join (P_apply P_start 1) (P_apply P_start 0)) /\ (2147483648 <= Z.of_nat (sum_list [big; 1%nat]))%Z /\
  (exists b, Z.of_nat b = 2147483647%Z).
Proof.
  intros big Hb. split; [unfold plan_of; simpl; apply perm_swap|]. split; [simpl; lia|].
  exists (Z.to_nat 2147483647). by rewrite Z2Nat.id.
Qed.
Theorem C79_dense : forall offs minpts p, (forall i a b, offs !! i = Some a -> offs !! S i = Some b -> a <= b) -> plan_of (length offs - 1) p ->
  (Z.of_nat (num_dense_points offs minpts) < 2147483648)%Z -> dense_reduce offs minpts p = Some (Z.of_nat (num_dense_points offs minpts)).
Proof.
  intros offs minpts p Hs Hp Hb.
  assert (Hf : forall l, sum_list (csize offs <$> List.filter (is_dense offs minpts) l) = sumw (fun i => if is_dense offs minpts i then csize offs i else 0) l).
  { intros l. induction l as [|i l IH]; [done|]. cbn [List.filter map]. destruct (is_dense offs minpts i); rewrite ?fmap_cons; [change (csize offs i + sum_list (csize offs <$> List.filter (is_dense offs minpts) l) = csize offs i + sumw (fun i => if is_dense offs minpts i then csize offs i else 0) l)|change (sum_list (csize offs <$> List.filter (is_dense offs minpts) l) = 0 + sumw (fun i => if is_dense offs minpts i then csize offs i else 0) l)]; by rewrite IH. }
  unfold num_dense_points in *. rewrite Hf in *. apply sum_plan; [done..|]. intros i u Hi Hu.
  destruct (lookup_lt_is_Some_2 offs i) as [a Ha]; [lia|]. destruct (lookup_lt_is_Some_2 offs (S i)) as [b Hc]; [lia|]. specialize (Hs i a b Ha Hc).
  unfold is_dense, csize, is_int in *. rewrite Ha, Hc in *. simpl in *. destruct (minpts <=? b - a) eqn:E; simpl.
  - apply Nat.leb_le in E. rewrite (proj2 (Z.leb_le _ _)) by lia. unfold add_int. rewrite (proj2 (Z.leb_le _ _)), (proj2 (Z.ltb_lt _ _)) by lia. simpl. f_equal. lia.
  - apply Nat.leb_gt in E. rewrite (proj2 (Z.leb_gt _ _)) by lia. f_equal. lia.
Qed.
Lemma any_opt_spec f l : (forall i, i ∈ l -> is_Some (f i)) -> exists b, any_opt f l = Some b /\ (b = true <-> exists i, i ∈ l /\ f i = Some true).
Proof.
  induction l as [|i l IH]; intros H.
  - exists false. split; [done|]. split; [done|]. intros (i & Hi & _). by apply elem_of_nil in Hi.
  - destruct IH as (b & E & Hb); [intros j Hj; apply H; by right|]. destruct (H i ltac:(left)) as [c Hc]. simpl. rewrite Hc, E. simpl. exists (c || b). split; [done|].
    rewrite orb_true_iff, Hb. setoid_rewrite elem_of_cons. split; [intros [->|(j & ? & ?)]; eauto|]. intros (j & [->|Hj] & Hj'); [left; congruence|eauto].
Qed.
Theorem C79_overflow : forall offset perm counts n p, plan_of n p -> (Z.of_nat n < 2147483648)%Z -> (forall i, i < n -> is_Some (overflow_at offset perm counts i)) ->
  exists b, overflow_reduce offset perm counts p = Some b /\ any_opt (overflow_at offset perm counts) (seq 0 n) = Some b /\
    (b = true <-> exists i, i < n /\ overflow_at offset perm counts i = Some true).
Proof.
  intros offset perm counts n p Hp Hn Hd. set (f := overflow_at offset perm counts) in *.
  assert (exists r, run_plan (fun i u => o ← f i; Some (if o : bool then 1%Z else u)) add_int 0%Z p = Some r /\
    (0 <= r <= Z.of_nat (length (iterations p)))%Z /\ ((0 < r)%Z <-> exists i, i ∈ iterations p /\ f i = Some true)) as (r & E & Hr & Hi).
  { apply (plan_ind_sub _ _ _ (fun l r => (0 <= r <= Z.of_nat (length l))%Z /\ ((0 < r)%Z <-> exists i, i ∈ l /\ f i = Some true)) (seq 0 n)).
    - split; [simpl; lia|]. split; [lia|]. intros (i & Hi & _). by apply elem_of_nil in Hi.
    - intros l i u Hs [H1 H2]. assert (i < n) as Hi.
      { assert (i ∈ seq 0 n) as Hi%elem_of_seq; [|lia]. eapply elem_of_submseteq; [|exact Hs]. apply elem_of_app. right. left. }
      destruct (Hd i Hi) as [c Hc]. rewrite Hc. simpl. eexists. split; [done|]. rewrite app_length. simpl. setoid_rewrite elem_of_app. setoid_rewrite elem_of_list_singleton.
      destruct c; (split; [lia|]).
      + split; [intros _; exists i; auto|lia].
      + rewrite H2. split; [intros (j & ? & ?); eauto|]. intros (j & [Hj| ->] & Hj'); [eauto|congruence].
    - intros l k u w Hs [H1 H2] [K1 K2]. pose proof (submseteq_length _ _ Hs) as Hl. rewrite app_length, seq_length in Hl. exists (u + w)%Z. unfold add_int.
      rewrite (proj2 (Z.leb_le _ _)), (proj2 (Z.ltb_lt _ _)) by lia. split; [done|]. rewrite app_length. split; [lia|]. setoid_rewrite elem_of_app.
      split.
      + intros H. assert (0 < u \/ 0 < w)%Z as [Hu|Hw] by lia; [apply H2 in Hu as (j & ? & ?)|apply K2 in Hw as (j & ? & ?)]; eauto.
      + intros (j & [Hj|Hj] & Hj'); [assert (0 < u)%Z by (apply H2; eauto)|assert (0 < w)%Z by (apply K2; eauto)]; lia.
    - by rewrite Hp. }
  destruct (any_opt_spec f (seq 0 n)) as (b & Eb & Hb). { intros i Hs%elem_of_seq. apply Hd. lia. }
  exists b. unfold overflow_reduce. fold f. rewrite E. simpl. setoid_rewrite Hp in Hi. setoid_rewrite elem_of_seq in Hb. setoid_rewrite elem_of_seq in Hi.
  assert (Hb' : b = true <-> exists i, i < n /\ f i = Some true). { rewrite Hb. split; intros (i & ? & ?); exists i; (split; [lia|done]). }
  split; [|done]. f_equal. apply eq_true_iff_eq. rewrite Hb, Z.ltb_lt. done.
Qed.

(** Three threads, one of them without an iteration. *)
Definition a_plan : rplan := P_join (P_apply (P_apply P_start 3) 1) (P_join P_start (P_apply (P_apply P_start 0) 2)).
Example C79_example : plan_of 4 a_plan /\ Forall is_int [3; -5; 7; 7]%Z /\ minmax_reduce Z.ltb [3; -5; 7; 7]%Z int_ids a_plan = Some (-5, 7)%Z /\
  min_reduce Z.ltb [3; -5; 7; 7]%Z 2147483647%Z a_plan = Some (-5)%Z /\ max_reduce Z.ltb [3; -5; 7; 7]%Z (-2147483648)%Z a_plan = Some 7%Z.
Proof. split; [|split; [repeat constructor; unfold is_int; lia|repeat split; vm_compute; reflexivity]]. unfold plan_of. apply (bool_decide_unpack _). vm_compute. exact I. Qed.
Example C79_ranks_example : Forall (fun d => is_int (rank_int d)) [Some 2; None; Some 5; None] /\ DistributorModel.max_reduce [Some 2; None; Some 5; None] = Some 5 /\
  max_reduce Z.ltb (map rank_int [Some 2; None; Some 5; None]) (-2147483648)%Z a_plan = Some 5%Z /\
  max_reduce Z.ltb (map rank_int [None; None; None; None]) (-2147483648)%Z a_plan = Some (-1)%Z.
Proof. split; [repeat constructor; unfold is_int; simpl; lia|repeat split; vm_compute; reflexivity]. Qed.
Example C79_sum_example : count_reduce [3; 0; 2; 4] a_plan = Some 9%Z /\
  (forall i a b, [0; 3; 4; 9; 12] !! i = Some a -> [0; 3; 4; 9; 12] !! S i = Some b -> a <= b) /\
  num_dense_points [0; 3; 4; 9; 12] 3 = 11 /\ dense_reduce [0; 3; 4; 9; 12] 3 a_plan = Some 11%Z /\
  (forall i, i < 4 -> is_Some (overflow_at [0; 2; 4; 6; 8] [1; 0; 3; 2] [1; 3; 2; 3] i)) /\
  overflow_reduce [0; 2; 4; 6; 8] [1; 0; 3; 2] [1; 3; 2; 3] a_plan = Some true /\ overflow_reduce [0; 2; 4; 6; 8] [1; 0; 3; 2] [1; 2; 2; 0] a_plan = Some false.
Proof.
  split; [vm_compute; reflexivity|]. split; [intros i a b; do 5 (destruct i as [|i]; [simpl; intros; simplify_eq; lia|]); done|].
  split; [vm_compute; reflexivity|]. split; [vm_compute; reflexivity|]. split; [intros i; do 4 (destruct i as [|i]; [vm_compute; eauto|]); lia|].
  split; vm_compute; reflexivity.
Qed.
(** Floating point: if Kokkos::Min starts from the largest finite number, a view of infinities has a minimum that is not in it. *)
Example C79_infinite_example : minmax_reduce SFltb (replicate 4 (S754_infinity false)) (raw 24 128 (max_num 24 128), raw 24 128 (min_num 24 128)) a_plan =
  Some (raw 24 128 (max_num 24 128), S754_infinity false).
Proof. vm_compute. reflexivity. Qed.
Print Assumptions C79_minmax.
Print Assumptions C79_min.
Print Assumptions C79_max.
Print Assumptions C79_minmax_int.
Print Assumptions C79_max_int.
Print Assumptions C79_ranks.
Print Assumptions C79_destinations.
Print Assumptions C79_count.
Print Assumptions C79_dense.
Print Assumptions C79_overflow.
Print Assumptions C79_count_undefined.
