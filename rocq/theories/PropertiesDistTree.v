(** C33: spatial queries on a distributed tree. *)
From Coq Require Import Sorting.Sorted.
From Verif Require Import Base KernelAlgModel CrsModel CrsSpec DistributorModel DistributorProof DistTreeModel DistTreeProof DistTreeSpec DistQueryProof.

Section Spatial.
Context {Q V : Type} (matches : Q -> V -> bool) (bound : Q -> nat -> bool).

Lemma union_ranks {C} (f : Q -> V -> list C) (values : list (list V)) q rs :
  (forall r vs v, values !! r = Some vs -> v ∈ vs -> matches q v = true -> bound q r = true) ->
  rs ≡ₚ List.filter (bound q) (seq 0 (length values)) ->
  concat (map (fun r => concat (map (f q) (List.filter (matches q) (default [] (values !! r))))) rs) ≡ₚ
  concat (map (f q) (List.filter (matches q) (concat values))).
Proof.
  intros Hc ->. rewrite concat_map_filter. rewrite filter_concat.
  assert (forall g : list V -> list C, concat (map g values) = concat (map (fun r => g (default [] (values !! r))) (seq 0 (length values)))) as E.
  { intros g. f_equal. transitivity (map g (map (fun r => default [] (values !! r)) (seq 0 (length values)))); [by rewrite seq_lookup_map|by rewrite map_map]. }
  assert (concat (map (f q) (concat (map (List.filter (matches q)) values))) = concat (map (fun vs => concat (map (f q) (List.filter (matches q) vs))) values)) as ->.
  { clear. induction values as [|vs values IH]; [done|]. simpl. by rewrite map_app, concat_app, IH. }
  rewrite E. match goal with |- ?a ≡ₚ ?b => enough (a = b) as -> by done end. f_equal. apply map_ext_in. intros r Hr. apply in_seq in Hr.
  destruct (bound q r) eqn:Eb; [done|]. destruct (lookup_lt_is_Some_2 values r) as [vs Hvs]; [lia|]. rewrite Hvs. simpl.
  rewrite list_filter_none; [done|]. intros v Hv. destruct (matches q v) eqn:Em; [|done]. rewrite (Hc r vs v Hvs Hv Em) in Eb. done.
Qed.

Lemma elem_of_concat {A} (x : A) (ls : list (list A)) : x ∈ concat ls <-> exists l, l ∈ ls /\ x ∈ l.
Proof.
  rewrite elem_of_list_In, in_concat. split; intros (l & H1 & H2); exists l; [rewrite !elem_of_list_In|rewrite !elem_of_list_In in *]; done.
Qed.
Lemma all_empty (values : list (list V)) : sum_list (length <$> values) = 0 -> concat values = [].
Proof. induction values as [|[|v vs] values IH]; csimpl; intros H; [done|by apply IH|lia]. Qed.

(** Every rank gets, for each of its queries, what the callback emits for the matching values of all ranks. *)
Theorem C33_spatial : forall {C} (cb : Q -> V -> list C) (values : list (list V)) (preds : list (list Q)),
  length preds = length values ->
  (forall q r vs v, q ∈ concat preds -> values !! r = Some vs -> v ∈ vs -> matches q v = true -> bound q r = true) ->
  spatial_queryDispatch (length <$> values)
    (fun q rs => rs ≡ₚ List.filter (bound q) (seq 0 (length values)))
    (fun r q l => l ≡ₚ concat (map (cb q) (List.filter (matches q) (default [] (values !! r))))) preds
    (fun s out offset => forall p, preds !! s = Some p ->
       CrsAnswer (map (fun q => concat (map (cb q) (List.filter (matches q) (concat values)))) p) out offset).
Proof.
  intros C cb values preds HP Hc. unfold spatial_queryDispatch.
  destruct (Nat.eqb_spec (sum_list (length <$> values)) 0) as [E|_].
  { intros s p Hp p' Hp'. assert (p' = p) as -> by congruence. rewrite (all_empty _ E). split; [split|].
    - by rewrite replicate_length, map_length.
    - intros q Hq. rewrite map_length in Hq. rewrite lookup_replicate_2 by lia. f_equal. clear. revert q. induction p as [|x p IH]; intros [|q]; simpl; auto.
    - exists (map (fun _ => []) p). split; [clear; induction p; simpl; constructor; done|]. clear. induction p as [|x p IH]; [done|]. simpl in *. done. }
  apply TopQuery_ok. intros TS HTS.
  apply forward_ok.
  - eapply Forall2_impl; [exact HTS|]. intros p ts H. by eapply Forall2_length.
  - intros ts rs r Hts Hrs Hr. apply elem_of_list_lookup in Hts as [s Hts]. destruct (Forall2_lookup_r _ _ _ _ _ HTS Hts) as (p&_&HF).
    apply elem_of_list_lookup in Hrs as [j Hrs]. destruct (Forall2_lookup_r _ _ _ _ _ HF Hrs) as (q&_&rs0&H0&H1).
    rewrite H1, H0 in Hr. apply list_filter_elem in Hr as [Hr _]. apply elem_of_seq in Hr. lia.
  - intros s p ts vals off R Hp Hts HR HC p' Hp'. assert (p' = p) as -> by congruence.
    pose proof (Forall2_lookup_lr _ _ _ _ _ _ HTS Hp Hts) as HF. eapply CrsAnswer_perm; [|exact HC].
    assert (forall q, q ∈ p -> forall r vs v, values !! r = Some vs -> v ∈ vs -> matches q v = true -> bound q r = true) as Hcp.
    { intros q Hq r vs v. apply Hc. apply elem_of_concat. exists p. split; [by eapply elem_of_list_lookup_2|done]. }
    clear -HF HR Hcp. revert ts HF R HR. induction p as [|q p IH]; intros ts HF R HR.
    + inversion HF; subst. inversion HR; subst. constructor.
    + inversion HF as [|? rs ? ts' (rs0&H0&H1) HF']; subst. simpl in HR. apply Forall2_cons_inv_l in HR as (row&R'&(ls&Hls&->)&HR'&->). simpl. constructor; [|eapply IH; [intros x Hx; apply Hcp; by right|done|done]].
      rewrite <- (union_ranks cb values q rs (Hcp q ltac:(left))) by (by rewrite H1).
      clear -Hls. induction Hls as [|r l rs ls H HF IH]; [done|]. simpl. by rewrite H, IH.
Qed.

(** The overload without output: on every rank the callback is called once for every pair of a query of any rank and
    a matching value of this rank. *)
Theorem C33_spatial_callback : forall (values : list (list V)) (preds : list (list Q)),
  length preds = length values ->
  (forall q r vs v, q ∈ concat preds -> values !! r = Some vs -> v ∈ vs -> matches q v = true -> bound q r = true) ->
  spatial_queryDispatch_pure (length <$> values)
    (fun q rs => rs ≡ₚ List.filter (bound q) (seq 0 (length values)))
    (fun r q l => l ≡ₚ List.filter (matches q) (default [] (values !! r))) preds
    (fun calls => length calls = length values /\ forall r vs cs, values !! r = Some vs -> calls !! r = Some cs ->
       cs ≡ₚ concat (map (fun q => map (pair q) (List.filter (matches q) vs)) (concat preds))).
Proof.
  intros values preds HP Hc. unfold spatial_queryDispatch_pure.
  destruct (Nat.eqb_spec (sum_list (length <$> values)) 0) as [E|_].
  { split; [by rewrite replicate_length|]. intros r vs cs Hvs Hcs. apply lookup_replicate in Hcs as [-> _].
    apply all_empty in E. assert (vs = []) as ->.
    { destruct vs as [|v vs]; [done|]. assert (v ∈ concat values) as Hv; [|rewrite E in Hv; by apply elem_of_nil in Hv].
      apply elem_of_list_In, in_concat. exists (v :: vs). split; [|by left]. apply elem_of_list_In. by eapply elem_of_list_lookup_2. }
    clear. induction (concat preds) as [|q l IH]; done. }
  apply TopQuery_ok. intros TS HTS.
  assert (Forall2 (fun p ts => length p = length ts) preds TS) as HL2.
  { eapply Forall2_impl; [exact HTS|]. intros p ts H. by eapply Forall2_length. }
  apply forward_only_ok; [done| |].
  - intros ts rs r Hts Hrs Hr. apply elem_of_list_lookup in Hts as [s Hts]. destruct (Forall2_lookup_r _ _ _ _ _ HTS Hts) as (p&_&HF).
    apply elem_of_list_lookup in Hrs as [j Hrs]. destruct (Forall2_lookup_r _ _ _ _ _ HF Hrs) as (q&_&rs0&H0&H1).
    rewrite H1, H0 in Hr. apply list_filter_elem in Hr as [Hr _]. apply elem_of_seq in Hr. lia.
  - intros qss HLq Hqss. exists qss. split; [apply init_all|]. intros calls HLc HC. split; [lia|].
    intros r vs cs Hvs Hcs. pose proof (lookup_lt_Some _ _ _ Hvs) as Hr.
    destruct (lookup_lt_is_Some_2 qss r) as [qs Hqs]; [lia|]. destruct (HC r qs cs Hqs Hcs) as (R&HR&->).
    rewrite Hvs in HR. simpl in HR.
    assert (concat (zip_with (fun q l => map (pair q) l) qs R) ≡ₚ concat (map (fun q => map (pair q) (List.filter (matches q) vs)) qs)) as ->.
    { clear -HR. induction HR as [|q l qs R H HF IH]; [done|]. simpl. by rewrite H, IH. }
    rewrite (Hqss r qs Hqs).
    assert (forall s, concat (map (fun q => map (pair q) (List.filter (matches q) vs)) (map (fun t => t.2.1) (List.filter (fun t => t.2.2 =? r) (concat (all_tasks s preds TS))))) ≡ₚ
      concat (map (fun q => map (pair q) (List.filter (matches q) vs)) (concat preds))) as H; [|apply H].
    assert (forall q rs, rs ≡ₚ List.filter (bound q) (seq 0 (length values)) ->
      List.filter (fun x => x =? r) rs = if bound q r then [r] else []) as HK.
    { intros q rs HE. assert (NoDup rs) as ND. { rewrite HE. apply NoDup_ListNoDup, List.NoDup_filter, seq_NoDup. }
      assert (forall x, x ∈ List.filter (fun x => x =? r) rs <-> x = r /\ bound q r = true) as HX.
      { intros x. rewrite elem_of_list_In, filter_In, <- elem_of_list_In, HE, Nat.eqb_eq, list_filter_elem, elem_of_seq.
        split; [intros ((_&?)&->); done|intros (->&?); split; [split; [lia|done]|done]]. }
      assert (NoDup (List.filter (fun x => x =? r) rs)) as ND'. { apply NoDup_ListNoDup, List.NoDup_filter. by apply NoDup_ListNoDup. }
      destruct (List.filter (fun x => x =? r) rs) as [|a [|b l]] eqn:EL.
      - destruct (bound q r) eqn:Eb; [|done]. assert (r ∈ []) as Hn by (apply HX; done). by apply elem_of_nil in Hn.
      - destruct (proj1 (HX a) ltac:(left)) as [-> ->]. done.
      - destruct (proj1 (HX a) ltac:(left)) as [-> _]. destruct (proj1 (HX b) ltac:(right; left)) as [-> _].
        apply NoDup_cons in ND' as [Hn _]. exfalso. apply Hn. left. }
    assert (forall s p ts, (forall q, q ∈ p -> q ∈ concat preds) -> Forall2 (fun q rs => exists rs0, rs0 ≡ₚ List.filter (bound q) (seq 0 (length values)) /\ rs ≡ₚ rs0) p ts ->
      forall j, concat (map (fun q => map (pair q) (List.filter (matches q) vs)) (map (fun t => t.2.1) (List.filter (fun t => t.2.2 =? r) (tasks_from s j p ts)))) =
      concat (map (fun q => map (pair q) (List.filter (matches q) vs)) p)) as HT.
    { intros s p ts Hsub HF. revert Hsub. induction HF as [|q rs p ts (rs0&H0&H1) HF IH]; intros Hsub j; [done|]. simpl.
      rewrite list_filter_app, !map_app, concat_app, IH by (intros x Hx; apply Hsub; by right). f_equal.
      rewrite list_filter_map, map_map. simpl. rewrite (HK q rs) by (by rewrite H1). destruct (bound q r) eqn:Eb; simpl; [by rewrite app_nil_r|].
      rewrite list_filter_none; [done|]. intros v Hv. destruct (matches q v) eqn:Em; [|done]. rewrite (Hc q r vs v (Hsub q ltac:(left)) Hvs Hv Em) in Eb. done. }
    assert (forall p q, p ∈ preds -> q ∈ p -> q ∈ concat preds) as Hin by (intros p q Hp Hq; apply elem_of_concat; by exists p).
    assert (forall p, p ∈ preds -> forall q, q ∈ p -> q ∈ concat preds) as Hin' by (intros p Hp q; by apply Hin). clear Hin.
    revert HT Hin'. generalize (concat preds) at 1 2. intros all HT Hin. clear -HTS HT Hin.
    induction HTS as [|p ts preds TS HF HTS IH]; intros s; [done|]. simpl.
    rewrite list_filter_app, !map_app, !concat_app, IH by (intros x Hx; apply Hin; by right). rewrite HT; [done| |done]. apply Hin. left.
Qed.
End Spatial.
Print Assumptions C33_spatial.
Print Assumptions C33_spatial_callback.

(** Non-vacuity: three ranks, the second without values; values on a line, queries are intervals. *)
Definition ex_values : list (list Z) := [[1; 5]; []; [3; 9]]%Z.
Definition ex_matches (q : Z * Z) (v : Z) : bool := (q.1 <=? v)%Z && (v <=? q.2)%Z.
Definition ex_bounds : list (Z * Z) := [(1, 5); (1000, -1000); (3, 9)]%Z.
Definition ex_bound (q : Z * Z) (r : nat) : bool :=
  match ex_bounds !! r with Some (lo, hi) => (q.1 <=? hi)%Z && (lo <=? q.2)%Z | None => false end.
Example C33_example :
  (forall q r vs v, ex_values !! r = Some vs -> v ∈ vs -> ex_matches q v = true -> ex_bound q r = true) /\
  map (fun q => concat (map (fun v => [v]) (List.filter (ex_matches q) (concat ex_values)))) [(0, 4)%Z; (6, 8)%Z; (4, 20)%Z] = [[1; 3]; []; [5; 9]]%Z.
Proof.
  split; [|done]. intros [lo hi] r vs v Hvs Hv. unfold ex_matches, ex_bound. simpl.
  destruct r as [|[|[|r]]]; simpl in Hvs; try discriminate; injection Hvs as <-; cbn [ex_bounds lookup list_lookup fst snd];
    repeat (apply elem_of_cons in Hv as [->|Hv]); try (by apply elem_of_nil in Hv); lia.
Qed.
