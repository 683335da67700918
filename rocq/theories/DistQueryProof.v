(** Proofs about the spatial queries on a distributed tree. *)
From Coq Require Import Sorting.Sorted.
From Verif Require Import Base KernelAlgModel KernelAlgProof CrsModel CrsSpec CrsProof HeapModel HeapSpec
  DistributorModel DistributorSpec DistributorProof PropertiesDistributor DistTreeModel DistTreeProof DistTreeSpec.

Lemma mapM_init_all {X} (l : list (list X)) : mapM init (map (map Some) l) = Some l.
Proof. apply init_all. Qed.

Definition offs_of {X} (TS : list (list (list X))) : list (list nat) := map (fun ts => 0 :: run_offsets 0 (length <$> ts)) TS.

Lemma TopQuery_ok {Q} (Top : Q -> list nat -> Prop) preds (post : list (list nat) -> list (list nat) -> Prop) :
  (forall TS, Forall2 (Forall2 (fun q rs => exists rs0, Top q rs0 /\ rs ≡ₚ rs0)) preds TS ->
     post (map (@concat nat) TS) (offs_of TS)) ->
  TopQuery Top preds post.
Proof.
  intros HP ranks offs HLr HLo HA.
  destruct (list_choice preds (fun s p ts => Forall2 (fun q rs => exists rs0, Top q rs0 /\ rs ≡ₚ rs0) p ts /\
    ranks !! s = Some (map Some (concat ts)) /\ offs !! s = Some (0 :: run_offsets 0 (length <$> ts)))) as (TS&HL&H).
  { intros s p Hp. pose proof (lookup_lt_Some _ _ _ Hp).
    destruct (lookup_lt_is_Some_2 ranks s) as [rk Hrk]; [lia|]. destruct (lookup_lt_is_Some_2 offs s) as [off Hoff]; [lia|].
    destruct (HA s p rk off Hp Hrk Hoff) as (R&HR&[HO (L&HL&->)]). apply IsOffsets_run in HO. subst off.
    exists L. split; [|split; [done|]].
    - clear -HR HL. revert L HL. induction HR as [|q r p R HT HR IH]; intros L HL; inversion HL; subst; constructor; [by exists r|by apply IH].
    - rewrite Hoff. do 3 f_equal. clear -HL. induction HL as [|a b L R E HF IH]; csimpl; [done|]. by rewrite IH, (Permutation_length E). }
  exists (map (@concat nat) TS).
  assert (ranks = map (map Some) (map (@concat nat) TS)) as ->.
  { apply list_eq. intros s. change (map ?f ?l) with (f <$> l). rewrite !list_lookup_fmap. destruct (preds !! s) as [p|] eqn:Ep.
    - destruct (lookup_lt_is_Some_2 TS s) as [ts Hts]; [rewrite HL; by eapply lookup_lt_Some|]. destruct (H s p ts Ep Hts) as (_&->&_). by rewrite Hts.
    - apply lookup_ge_None in Ep. rewrite !lookup_ge_None_2; [done|lia..]. }
  assert (offs = offs_of TS) as ->.
  { unfold offs_of. apply list_eq. intros s. change (map ?f ?l) with (f <$> l). rewrite !list_lookup_fmap. destruct (preds !! s) as [p|] eqn:Ep.
    - destruct (lookup_lt_is_Some_2 TS s) as [ts Hts]; [rewrite HL; by eapply lookup_lt_Some|]. destruct (H s p ts Ep Hts) as (_&_&->). by rewrite Hts.
    - apply lookup_ge_None in Ep. rewrite !lookup_ge_None_2; [done|lia..]. }
  split; [apply init_all|]. apply HP. apply Forall2_same_length_lookup. split; [done|]. intros s p ts Hp Hts. by destruct (H s p ts Hp Hts).
Qed.

(** Every query is forwarded to each of its ranks, and nothing else is. *)
Lemma forward_only_ok {Q} (preds : list (list Q)) (TS : list (list (list nat))) (post : list (list (option Q)) -> Prop) :
  Forall2 (fun p ts => length p = length ts) preds TS ->
  (forall ts rs r, ts ∈ TS -> rs ∈ ts -> r ∈ rs -> r < length preds) ->
  (forall qss, length qss = length preds ->
     (forall r qs, qss !! r = Some qs -> qs = map (fun t => t.2.1) (List.filter (fun t => t.2.2 =? r) (concat (all_tasks 0 preds TS)))) ->
     post (map (map Some) qss)) ->
  forwardQueries_only preds (map (@concat nat) TS) (offs_of TS) post.
Proof.
  intros HF Hb Hpost.
  pose proof (Forall2_length _ _ _ HF) as HLen.
  set (T := all_tasks 0 preds TS).
  assert (length T = length preds) as HT by (by apply all_tasks_length).
  set (sizess := map (fun ts : list (list nat) => length <$> ts) TS).
  assert (offs_of TS = map (fun sz => 0 :: run_offsets 0 sz) sizess) as ->.
  { unfold sizess, offs_of. by rewrite map_map. }
  assert (map (@concat nat) TS = map (map (fun t => t.2.2)) T) as ER.
  { unfold T. rewrite (all_tasks_map _ (fun _ ts _ => concat ts) preds 0 TS HF (fun s p ts H => tasks_r s p 0 ts H)).
    rewrite (imap_zip_map (fun _ ts => concat ts) preds TS 0). clear -HF. induction HF; simpl; congruence. }
  assert (zip_with per_item preds sizess = map (map (fun t => t.2.1)) T) as EQ.
  { unfold T. rewrite (all_tasks_map _ (fun p ts _ => per_item p (length <$> ts)) preds 0 TS HF (fun s p ts H => tasks_q s p 0 ts H)).
    rewrite (imap_zip_map (fun p (ts : list (list nat)) => per_item p (length <$> ts)) preds TS 0). unfold sizess. clear -HF. induction HF; simpl; congruence. }
  unfold forwardQueries_only.
  destruct (plans_exist (map (@concat nat) TS)) as (plans&->&HPl).
  apply (WithPlan_ok (map (@concat nat) TS)); [done| |].
  { intros ds d Hds Hd. rewrite map_length, <- HLen. apply elem_of_list_In, in_map_iff in Hds as (ts&<-&Hts).
    apply elem_of_list_In, in_concat in Hd as (rs&Hrs&Hd). eapply (Hb ts rs d); by apply elem_of_list_In. }
  intros pl HPF. rewrite ER in HPF.
  apply FillAll_ok.
  { unfold sizess. clear -HF. induction HF; simpl; constructor; [by rewrite fmap_length|done]. }
  rewrite EQ. eapply (ExchangeAll_self (fun t => t.2.2)); [done|]. rewrite HT.
  set (qss := map (fun r => map (fun t => t.2.1) (List.filter (fun t => t.2.2 =? r) (concat T))) (seq 0 (length preds))).
  replace (map (fun r => map Some (map (fun t => t.2.1) (List.filter (fun t => t.2.2 =? r) (concat T)))) (seq 0 (length preds))) with (map (map Some) qss)
    by (unfold qss; by rewrite map_map).
  apply Hpost; [unfold qss; by rewrite map_length, seq_length|].
  intros r qs Hr. unfold qss in Hr. change (map ?f (seq 0 ?n)) with (f <$> seq 0 n) in Hr. rewrite list_lookup_fmap in Hr.
  destruct (seq 0 (length preds) !! r) eqn:E; [|done]. apply lookup_seq in E as [-> _]. simpl in Hr. by injection Hr as <-.
Qed.

Lemma filter_concat {X} (f : X -> bool) (l : list (list X)) : List.filter f (concat l) = concat (map (List.filter f) l).
Proof. induction l as [|x l IH]; [done|]. simpl. by rewrite list_filter_app, IH. Qed.
Lemma concat_map_filter {X Y} (f : X -> bool) (g : X -> list Y) l : concat (map g (List.filter f l)) = concat (map (fun x => if f x then g x else []) l).
Proof. induction l as [|x l IH]; [done|]. simpl. destruct (f x); simpl; by rewrite IH. Qed.
Lemma concat_map_perm {X Y} (g : X -> list Y) l k : l ≡ₚ k -> concat (map g l) ≡ₚ concat (map g k).
Proof. intros H. by apply concat_perm, Permutation_map. Qed.
Lemma seq_lookup_map {X} (d : X) (l : list X) : map (fun r => default d (l !! r)) (seq 0 (length l)) = l.
Proof.
  apply list_eq. intros i. change (map ?f ?l) with (f <$> l). rewrite list_lookup_fmap. destruct (l !! i) as [x|] eqn:E.
  - rewrite lookup_seq_lt by (by eapply lookup_lt_Some). simpl. by rewrite E.
  - rewrite (proj2 (lookup_ge_None _ _)); [done|]. rewrite seq_length. by apply lookup_ge_None.
Qed.
