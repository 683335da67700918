(** C32: the Distributor delivers every exported item to its destination, for every order of the messages. *)
From Coq Require Import Sorting.Sorted.
From Verif Require Import Base KernelAlgModel CrsProof DistributorModel DistributorSpec DistributorProof.

Lemma items_for_fmap {A B} (f : A -> B) r rs xs : items_for r rs (f <$> xs) = f <$> items_for r rs xs.
Proof.
  unfold items_for. revert xs. induction rs as [|a rs IH]; intros [|x xs]; try done. csimpl.
  destruct (a =? r); csimpl; by rewrite IH.
Qed.
Lemma delivered_fmap {A B} (f : A -> B) r rss (xss : list (list A)) : delivered r rss (map (map f) xss) = map f (delivered r rss xss).
Proof.
  unfold delivered. revert xss. induction rss as [|rs rss IH]; intros [|xs xss]; try done. csimpl.
  unfold delivered in *. csimpl. rewrite map_app. f_equal; [apply items_for_fmap|apply IH].
Qed.

Lemma plans_exist rss : exists plans, mapM createFromSends rss = Some plans /\ Forall2 PlanOK rss plans.
Proof.
  induction rss as [|rs rss (plans&E&HF)]; [exists []; split; [done|constructor]|].
  destruct (createFromSends_plan rs) as (p&Ep&HP). exists (p :: plans).
  cbn [mapM]. rewrite Ep. cbn [mbind option_bind]. rewrite E. split; [done|by constructor].
Qed.

Lemma exchange_delivers {A} rss plans (xss : list (list A)) : Forall2 PlanOK rss plans ->
  Forall2 (fun ds xs => length ds = length xs) rss xss ->
  (forall ds d, ds ∈ rss -> d ∈ ds -> d < length rss) ->
  forall graph, GraphOK plans graph -> exists pl, prepare graph plans = Some pl /\
    forall order arrival, OrderOK rss order -> ArrivalOK pl arrival ->
      exchange pl order arrival (map (map Some) xss) = Some (map (fun r => map Some (delivered r rss xss)) (seq 0 (length rss))).
Proof.
  intros HF HX Hb graph HG. pose proof (Forall2_length _ _ _ HF) as HL.
  rewrite (prepare_ok rss plans graph HF HG).
  2: { intros s rs d Hs Hd. rewrite <- HL. apply (Hb rs d); [by eapply elem_of_list_lookup_2|done]. }
  eexists. split; [done|]. intros order arrival HO HA.
  rewrite (exchange_ok rss plans (map (map Some) xss) _ order arrival HF); try done.
  - f_equal. rewrite <- HL. apply map_ext. intros r. apply delivered_fmap.
  - apply (Forall2_fmap_r (map Some)). eapply Forall2_impl; [exact HX|]. intros ds xs H. simpl. by rewrite map_length.
Qed.

(** One destination rank per item, in any order: whatever branch of preparePointToPointCommunication is compiled
    in, whatever order the graph neighbours come back in, whatever order the permutation kernel and the messages
    take, every rank r ends up with exactly the items addressed to it, by ascending sender and in sending order;
    no element of the receive buffer is left uninitialised and no access is out of bounds. *)
Theorem C32_delivery : forall {A} (dests : list (list nat)) (items : list (list A)),
  Forall2 (fun ds xs => length ds = length xs) dests items ->
  (forall ds d, ds ∈ dests -> d ∈ ds -> d < length dests) ->
  exists plans, mapM createFromSends dests = Some plans /\
  forall graph, GraphOK plans graph -> exists pl, prepare graph plans = Some pl /\
  forall order arrival, OrderOK dests order -> ArrivalOK pl arrival ->
    exchange pl order arrival (map (map Some) items) =
      Some (map (fun r => map Some (delivered r dests items)) (seq 0 (length dests))).
Proof.
  intros A dests items HX Hb. destruct (plans_exist dests) as (plans&E&HF). exists plans. split; [done|].
  by apply exchange_delivers.
Qed.
Print Assumptions C32_delivery.

(** The batched overload: one destination per batch, batches of one destination next to each other. *)
Theorem C32_batched_delivery : forall {A} (ranks sizes : list (list nat)) (items : list (list A)),
  Forall2 (fun rs ns => length ns = length rs) ranks sizes ->
  Forall2 (fun ns xs => length xs = sum_list ns) sizes items ->
  (forall rs, rs ∈ ranks -> Grouped rs) ->
  (forall rs d, rs ∈ ranks -> d ∈ rs -> d < length ranks) ->
  let dests := zip_with per_item ranks sizes in
  exists plans, Forall2 (fun '(rs, ns) p => createFromSends_batched rs (0 :: run_offsets 0 ns) = Some p) (zip ranks sizes) plans /\
  forall graph, GraphOK plans graph -> exists pl, prepare graph plans = Some pl /\
  forall order arrival, OrderOK dests order -> ArrivalOK pl arrival ->
    exchange pl order arrival (map (map Some) items) =
      Some (map (fun r => map Some (delivered r dests items)) (seq 0 (length dests))).
Proof.
  intros A ranks sizes items HR HI HG Hb dests.
  assert (length dests = length ranks) as HLd. { unfold dests. rewrite zip_with_length, (Forall2_length _ _ _ HR). lia. }
  assert (exists plans, Forall2 (fun '(rs, ns) p => createFromSends_batched rs (0 :: run_offsets 0 ns) = Some p) (zip ranks sizes) plans /\
    Forall2 PlanOK dests plans) as (plans&HE&HF).
  { unfold dests. clear HI Hb HLd dests. induction HR as [|rs ns ranks sizes Hl HR IH]; [exists []; split; constructor|].
    destruct IH as (plans&?&?). { intros rs' Hrs. apply HG. by right. }
    destruct (batched_plan rs ns) as (p&Ep&HP); [apply HG; left|done|].
    exists (p :: plans). split; simpl; by constructor. }
  exists plans. split; [done|]. apply exchange_delivers; [done| |].
  - unfold dests. clear -HR HI. revert items HI. induction HR as [|rs ns ranks sizes Hl HR IH]; intros items HI; inversion HI; subst; [constructor|].
    simpl. constructor; [|by apply IH]. by rewrite per_item_length.
  - intros ds d Hds Hd. rewrite HLd. unfold dests in Hds.
    apply elem_of_list_lookup in Hds as [i Hi]. apply lookup_zip_with_Some in Hi as (rs&ns&->&H1&H2).
    apply (Hb rs d); [by eapply elem_of_list_lookup_2|by eapply per_item_sub].
Qed.
Print Assumptions C32_batched_delivery.

(** Nothing is lost, duplicated or invented: all receive buffers together are a permutation of all exports. *)
Lemma items_split {A} n ds (xs : list A) : length ds = length xs -> (forall d, d ∈ ds -> d < n) ->
  concat ((fun r => items_for r ds xs) <$> seq 0 n) ≡ₚ xs.
Proof.
  revert xs. induction ds as [|d ds IH]; intros [|x xs] Hl Hb; simpl in Hl; try done.
  - induction (seq 0 n); csimpl; done.
  - assert (d < n) as Hd by (apply Hb; left).
    specialize (IH xs ltac:(lia) ltac:(intros; apply Hb; by right)).
    transitivity (x :: concat ((fun r => items_for r ds xs) <$> seq 0 n)); [|by rewrite IH]. clear IH Hb.
    replace n with (d + (1 + (n - S d))) by lia. rewrite !seq_app, !fmap_app, !concat_app. simpl.
    assert (forall l, (forall r, r ∈ l -> r <> d) -> concat ((fun r => items_for r (d :: ds) (x :: xs)) <$> l) = concat ((fun r => items_for r ds xs) <$> l)) as Hne.
    { induction l as [|r l IHl]; intros H; [done|]. csimpl. rewrite IHl by (intros; apply H; by right). f_equal.
      unfold items_for. simpl. destruct (Nat.eqb_spec d r) as [->|]; [|done]. exfalso. apply (H r); [left|done]. }
    rewrite !Hne by (intros r Hr; apply elem_of_seq in Hr; lia).
    assert (items_for d (d :: ds) (x :: xs) = x :: items_for d ds xs) as -> by (unfold items_for; simpl; rewrite Nat.eqb_refl; done).
    rewrite !app_nil_r, <- app_comm_cons, <- Permutation_middle. done.
Qed.

Theorem C32_exactly_once : forall {A} (dests : list (list nat)) (items : list (list A)),
  Forall2 (fun ds xs => length ds = length xs) dests items ->
  (forall ds d, ds ∈ dests -> d ∈ ds -> d < length dests) ->
  concat (map (fun r => delivered r dests items) (seq 0 (length dests))) ≡ₚ concat items.
Proof.
  intros A dests items HX. generalize (length dests) as n. intros n Hb.
  induction HX as [|ds xs dests items Hl HX IH].
  - unfold delivered. simpl. induction (seq 0 n); done.
  - assert (forall l, concat (map (fun r => delivered r (ds :: dests) (xs :: items)) l) ≡ₚ
      concat ((fun r => items_for r ds xs) <$> l) ++ concat (map (fun r => delivered r dests items) l)) as ->.
    { induction l as [|r l IHl]; [done|]. csimpl. unfold delivered at 1. csimpl. fold (delivered r dests items).
      rewrite IHl. rewrite <- !(assoc_L (++)). f_equiv. rewrite !(assoc_L (++)). f_equiv. apply Permutation_app_comm. }
    simpl. rewrite items_split; [|done|intros d Hd; apply (Hb ds d); [left|done]].
    f_equiv. apply IH. intros ds' d Hds. apply (Hb ds' d). by right.
Qed.
Print Assumptions C32_exactly_once.

(** Non-vacuity: three ranks, unsorted destinations, messages arriving in reverse. *)
Example C32_example :
  let dests := [[2; 0; 2; 1]; [1; 1]; [0; 2; 0]] in
  let items := [[10; 11; 12; 13]; [20; 21]; [30; 31; 32]] in
  exists plans pl, mapM createFromSends dests = Some plans /\ GraphOK plans None /\ prepare None plans = Some pl /\
    pl_recv pl = [([0; 2], [0; 1; 3]); ([0; 1], [0; 1; 3]); ([0; 2], [0; 2; 3])] /\
    OrderOK dests (fun s => rev (seq 0 (length (default [] (dests !! s))))) /\ ArrivalOK pl (fun _ => [1; 0]) /\
    exchange pl (fun s => rev (seq 0 (length (default [] (dests !! s))))) (fun _ => [1; 0]) (map (map Some) items) =
      Some [[Some 11; Some 30; Some 32]; [Some 13; Some 20; Some 21]; [Some 10; Some 12; Some 31]].
Proof.
  eexists _, _. split; [vm_compute; reflexivity|]. split; [intros ? ? [=]|]. split; [vm_compute; reflexivity|].
  split; [reflexivity|]. split.
  { intros s rs Hs. rewrite Hs. simpl. by rewrite <- Permutation_rev. }
  split; [|vm_compute; reflexivity].
  intros r srcs soffs H. destruct r as [|[|[|r]]]; simpl in H; [injection H as <- <-..|done]; apply Permutation_swap.
Qed.

Example C32_batched_example :
  Grouped [1; 1; 0; 2] /\
  createFromSends_batched [1; 1; 0; 2] (0 :: run_offsets 0 [2; 1; 0; 3]) = Some (SendPlan [] [1; 2] [0; 3; 6]).
Proof.
  split; [|vm_compute; reflexivity].
  intros i j k a b Hij Hjk Ha Hb Hc.
  pose proof (lookup_lt_Some _ _ _ Hc) as Hk. simpl in Hk.
  destruct k as [|[|[|[|k]]]]; [| | | |lia]; destruct j as [|[|[|[|j]]]]; try lia; destruct i as [|[|[|i]]]; try lia; simpl in *; congruence.
Qed.
