(** C34, C35: nearest queries on a distributed tree and the filter at their end. *)
From Coq Require Import Sorting.Sorted.
From Verif Require Import Base KernelAlgModel CrsModel CrsSpec CrsProof HeapModel HeapSpec TraversalSpec MergeProof DistributorModel DistributorProof
  DistTreeModel DistTreeProof DistTreeSpec DistQueryProof DistNearestProof.

(** ** Sums over ranks *)
Notation sumf f l := (sum_list (map f l)).
Lemma sumf_min k (c : nat -> nat) l : min k (sumf (fun r => min k (c r)) l) = min k (sumf c l).
Proof. induction l as [|r l IH]; [done|]. simpl. lia. Qed.
Lemma sumf_perm (c : nat -> nat) l l' : l ≡ₚ l' -> sumf c l = sumf c l'.
Proof. induction 1; simpl; lia. Qed.
Lemma sumf_app (c : nat -> nat) l l' : sumf c (l ++ l') = sumf c l + sumf c l'.
Proof. induction l; simpl; lia. Qed.
Lemma sumf_mono (c c' : nat -> nat) l : (forall r, r ∈ l -> c r <= c' r) -> sumf c l <= sumf c' l.
Proof. induction l as [|r l IH]; intros H; [done|]. simpl. pose proof (H r ltac:(left)). assert (sumf c l <= sumf c' l) by (apply IH; intros; apply H; by right). lia. Qed.
Lemma sumf_ext (c c' : nat -> nat) l : (forall r, r ∈ l -> c r = c' r) -> sumf c l = sumf c' l.
Proof. intros H. apply Nat.le_antisymm; apply sumf_mono; intros r Hr; rewrite (H r Hr); lia. Qed.
Lemma sumf_filter (c : nat -> nat) f l : sumf c (List.filter f l) = sumf (fun r => if f r then c r else 0) l.
Proof. induction l as [|r l IH]; [done|]. simpl. destruct (f r); simpl; lia. Qed.
Lemma sumf_take (c : nat -> nat) m l : sumf c (take m l) <= sumf c l.
Proof. rewrite <- (take_drop m l) at 2. rewrite sumf_app. lia. Qed.
Lemma sumf_ge (c : nat -> nat) l : (forall r, r ∈ l -> 1 <= c r) -> length l <= sumf c l.
Proof. induction l as [|r l IH]; intros H; [simpl; lia|]. simpl. pose proof (H r ltac:(left)). assert (length l <= sumf c l) by (apply IH; intros; apply H; by right). lia. Qed.

Section Nearest.
Context {Q V C D : Type} (ltb : D -> D -> bool) (inf : D) (getK : Q -> nat) (dist : Q -> V -> D) (bd : Q -> nat -> D)
  (inside : Q -> D -> nat -> bool) (cb : Q -> V -> C) (values : list (list V)).
Notation vr r := (default [] (values !! r)).
Notation P := (length values).

Lemma total_cnt (f : V -> bool) : cntb f (concat values) = sumf (fun r => cntb f (vr r)) (seq 0 P).
Proof.
  transitivity (sum_list (map (fun vs => cntb f vs) values)).
  - clear. induction values as [|vs l IH]; [done|]. simpl. by rewrite cntb_app, IH.
  - f_equal. rewrite <- (seq_lookup_map [] values) at 1. by rewrite map_map.
Qed.
Lemma total_len : length (concat values) = sumf (fun r => length (vr r)) (seq 0 P).
Proof.
  transitivity (sum_list (map (@length V) values)).
  - clear. induction values as [|vs l IH]; [done|]. simpl. by rewrite app_length, IH.
  - f_equal. rewrite <- (seq_lookup_map [] values) at 1. by rewrite map_map.
Qed.

Hypothesis SW : StrictWeak ltb.
Context (Ok : Q -> Prop).
Hypothesis Hfin : forall q v, Ok q -> v ∈ concat values -> ltb (dist q v) inf = true.
Hypothesis Hbd : forall q r vs v, Ok q -> values !! r = Some vs -> v ∈ vs -> ltb (dist q v) (bd q r) = false.
Hypothesis Hempty : forall q r, Ok q -> values !! r = Some [] -> ltb (bd q r) inf = false.
Hypothesis Hcons : forall q rho r vs, Ok q -> values !! r = Some vs -> vs <> [] -> ltb rho (bd q r) = false -> inside q rho r = true.

Lemma bd_finite q r vs : Ok q -> values !! r = Some vs -> vs <> [] -> ltb (bd q r) inf = true.
Proof.
  intros HOk Hvs Hne. destruct vs as [|v vs]; [done|].
  assert (ltb (dist q v) inf = true) as Hf. { apply Hfin; [done|]. apply elem_of_list_In, in_concat. exists (v :: vs). split; [|by left]. apply elem_of_list_In. by eapply elem_of_list_lookup_2. }
  pose proof (Hbd q r (v :: vs) v HOk Hvs ltac:(left)) as Hb. destruct (ltb (bd q r) inf) eqn:E; [done|].
  rewrite (ltb_le_trans ltb SW inf (bd q r) (dist q v)) in Hf; done.
Qed.

(** The ranks kept in phase I hold enough values. *)
Lemma enough q rs rs0 m : Ok q -> rs ≡ₚ rs0 -> KNearest ltb inf (bd q) (getK q) (seq 0 P) rs0 -> needed (getK q) (length <$> values) 0 rs = Some m ->
  min (getK q) (length (concat values)) <= sumf (fun r => length (vr r)) (take m rs) /\
  (forall c, sumf c (take m rs) <= sumf c (seq 0 P)).
Proof.
  intros HOk HP HK Hm. destruct (kn_sub _ _ _ _ _ _ HK) as [rest Hrest].
  assert (forall r, r ∈ rs -> r < P /\ vr r <> []) as Hrs.
  { intros r Hr. rewrite HP in Hr. assert (r ∈ seq 0 P) as Hr'. { rewrite Hrest. apply elem_of_app. by left. } apply elem_of_seq in Hr'. split; [lia|].
    destruct (lookup_lt_is_Some_2 values r) as [vs Hvs]; [lia|]. rewrite Hvs. simpl. intros ->.
    pose proof (kn_fin _ _ _ _ _ _ HK r Hr) as Hf. rewrite (Hempty q r HOk Hvs) in Hf. done. }
  assert (forall c, sumf c (take m rs) <= sumf c (seq 0 P)) as Hsub.
  { intros c. rewrite (sumf_perm c _ _ Hrest), sumf_app, <- (sumf_perm c _ _ HP). pose proof (sumf_take c m rs). lia. }
  split; [|done].
  destruct (needed_ok (getK q) (length <$> values) rs) with (leaves := 0) as (m'&Hm'&Hle&H).
  { intros r Hr. rewrite fmap_length. by apply Hrs. }
  rewrite Hm in Hm'. injection Hm' as <-.
  assert (forall l, sumf (fun r => default 0 ((length <$> values) !! r)) l = sumf (fun r => length (vr r)) l) as EE.
  { intros l. apply sumf_ext. intros r _. rewrite list_lookup_fmap. by destruct (values !! r). }
  rewrite EE in H.
  destruct H as [Hall|H]; [|subst m|lia].
  { intros r Hr E. rewrite list_lookup_fmap in E. destruct (Hrs r Hr) as [Hlt Hne]. destruct (values !! r) as [vs|]; [|done]. simpl in E, Hne. injection E as E. by destruct vs. }
  rewrite firstn_all.
  assert (length rs <= sumf (fun r => length (vr r)) rs) as Hge.
  { apply sumf_ge. intros r Hr. destruct (Hrs r Hr) as [_ Hne]. destruct (vr r); [done|simpl; lia]. }
  pose proof (kn_len _ _ _ _ _ _ HK) as HL. rewrite <- (Permutation_length HP) in HL.
  set (fin := base.filter (fun o => ltb (bd q o) inf = true) (seq 0 P)) in HL.
  destruct (decide (getK q <= length fin)) as [Hk|Hk]; [lia|].
  assert (length rs = length fin) as HLf by lia.
  (* all finite ranks are taken *)
  assert (fin ≡ₚ rs0 ++ base.filter (fun o => ltb (bd q o) inf = true) rest) as HFp.
  { unfold fin. rewrite Hrest, filter_app. f_equiv.
    assert (forall l : list nat, (forall o : nat, o ∈ l -> ltb (bd q o) inf = true) -> base.filter (fun o : nat => ltb (bd q o) inf = true) l = l) as Hall.
    { clear. induction l as [|o l IH]; intros H; [done|]. rewrite filter_cons_True by (apply H; left). f_equal. apply IH. intros; apply H; by right. }
    rewrite Hall; [done|]. intros o Ho. by apply (kn_fin _ _ _ _ _ _ HK). }
  pose proof (Permutation_length HFp) as HFl. rewrite app_length, <- (Permutation_length HP) in HFl.
  assert (base.filter (fun o => ltb (bd q o) inf = true) rest = []) as Hno.
  { destruct (base.filter (fun o => ltb (bd q o) inf = true) rest) eqn:E; [done|simpl in HFl; lia]. }
  rewrite total_len, (sumf_perm _ _ _ Hrest), sumf_app, <- (sumf_perm _ _ _ HP).
  enough (sumf (fun r => length (vr r)) rest = 0) by lia.
  transitivity (sumf (fun _ => 0) rest); [|clear; induction rest; done]. apply sumf_ext. intros r Hr.
  assert (r < P) as Hlt. { assert (r ∈ seq 0 P) as Hs; [rewrite Hrest; apply elem_of_app; by right|]. apply elem_of_seq in Hs. lia. }
  destruct (lookup_lt_is_Some_2 values r) as [vs Hvs]; [lia|]. rewrite Hvs. simpl. destruct vs as [|v vs]; [done|exfalso].
  assert (r ∈ base.filter (fun o => ltb (bd q o) inf = true) rest) as Hin.
  { apply elem_of_list_filter. split; [|done]. by apply (bd_finite q r (v :: vs)). }
  rewrite Hno in Hin. by apply elem_of_nil in Hin.
Qed.

Notation Ans := (fun r q vs => Closest ltb (dist q) (getK q) (vr r) vs).

Lemma answers_count q rs ls rho : Forall2 (fun r l => exists vs, Ans r q vs /\ l = map (dist q) vs) rs ls ->
  cntb (within ltb id rho) (concat ls) = sumf (fun r => min (getK q) (cntb (within ltb (dist q) rho) (vr r))) rs /\
  length (concat ls) = sumf (fun r => min (getK q) (length (vr r))) rs.
Proof.
  induction 1 as [|r l rs ls (vs&HC&->) HF [IH1 IH2]]; [done|]. simpl. rewrite cntb_app, app_length, IH1, IH2, cntb_map, map_length.
  split.
  - f_equal. rewrite <- (Closest_count ltb SW (dist q) _ _ _ HC rho). done.
  - f_equal. by destruct HC as [-> _].
Qed.

(** Enough values lie within the radius found in phase I. *)
Lemma radius_ok q rs rs0 m ls row g f : Ok q -> rs ≡ₚ rs0 -> KNearest ltb inf (bd q) (getK q) (seq 0 P) rs0 -> needed (getK q) (length <$> values) 0 rs = Some m ->
  Forall2 (fun r l => exists vs, Ans r q vs /\ l = map (dist q) vs) (take m rs) ls -> row ≡ₚ concat ls ->
  FarOK ltb getK q row g f ->
  min (getK q) (length (concat values)) <= cntb (within ltb (dist q) f) (concat values).
Proof.
  intros HOk HP HK Hm HF Hrow [_ Hfar]. destruct (enough q rs rs0 m HOk HP HK Hm) as [Hen Hsub].
  destruct (answers_count q (take m rs) ls f HF) as [E1 E2].
  pose proof (sumf_min (getK q) (fun r => length (vr r)) (take m rs)) as HM. cbv beta in HM.
  destruct (decide (row = [])) as [->|Hne].
  - apply Permutation_nil_l in Hrow. rewrite <- Hrow in E2. change (length (@nil D)) with 0 in E2. rewrite <- E2 in HM. lia.
  - pose proof (Hfar Hne) as H. rewrite (cntb_perm _ _ _ Hrow), E1, (Permutation_length Hrow), E2 in H.
    rewrite total_cnt. pose proof (Hsub (fun r => cntb (within ltb (dist q) f) (vr r))).
    assert (sumf (fun r => min (getK q) (cntb (within ltb (dist q) f) (vr r))) (take m rs) <= sumf (fun r => cntb (within ltb (dist q) f) (vr r)) (take m rs)).
    { apply sumf_mono. intros. lia. }
    lia.
Qed.
Lemma row_k q rs ls : Forall2 (fun r l => exists vs, Ans r q vs /\ l = map (dist q) vs) rs ls -> concat ls <> [] -> 1 <= getK q.
Proof.
  intros HF Hne. destruct (answers_count q rs ls inf HF) as [_ E]. destruct (getK q) as [|k]; [exfalso|lia].
  apply Hne. apply nil_length_inv. rewrite E. change (sumf (fun _ => 0) rs = 0). clear. induction rs; done.
Qed.

(** Phase II and the filter. *)
Lemma final_ok q rho rs vss row popped : Ok q ->
  min (getK q) (length (concat values)) <= cntb (within ltb (dist q) rho) (concat values) ->
  rs ≡ₚ List.filter (inside q rho) (seq 0 P) ->
  Forall2 (fun r vs => Ans r q vs) rs vss -> row ≡ₚ map (fun v => (cb q v, dist q v)) (concat vss) ->
  Closest ltb snd (getK q) row popped -> Ascending (fun a b => ltb a.2 b.2) popped ->
  exists a, Closest ltb (dist q) (getK q) (concat values) a /\ Nearer ltb (dist q) a /\ map fst popped = map (cb q) a.
Proof.
  intros HOk Hrho Hrs HF Hrow HC HA.
  pose proof (Closest_count ltb SW snd _ _ _ HC) as HCC. destruct HC as (HL&rest&HPr&_).
  rewrite Hrow in HPr. symmetry in HPr. apply Permutation_map_inv in HPr as (l3&E3&HP3).
  symmetry in E3. apply map_eq_app in E3 as (a&rest'&->&<-&<-). exists a.
  set (k := getK q) in *. set (S := seq 0 P) in *.
  set (c := fun rho r => cntb (within ltb (dist q) rho) (vr r)).
  assert (forall rho', cntb (within ltb (dist q) rho') (concat vss) = sumf (fun r => min k (c rho' r)) rs) as Ec.
  { intros rho'. clear -HF SW. unfold c, k. induction HF as [|r vs rs vss H HF IH]; [done|]. simpl. rewrite cntb_app, IH. f_equal. by apply (Closest_count ltb SW). }
  assert (length (concat vss) = sumf (fun r => min k (length (vr r))) rs) as El.
  { clear -HF. unfold k. induction HF as [|r vs rs vss H HF IH]; [done|]. simpl. rewrite app_length, IH. f_equal. by destruct H as [-> _]. }
  assert (forall r, r ∈ S -> inside q rho r = false -> c rho r = 0) as Hout.
  { intros r Hr Hin. unfold S in Hr. apply elem_of_seq in Hr. destruct (lookup_lt_is_Some_2 values r) as [vs Hvs]; [lia|]. unfold c. rewrite Hvs. simpl.
    rewrite list_filter_none; [done|]. intros v Hv. unfold within. apply negb_false_iff.
    destruct (ltb rho (dist q v)) eqn:E; [done|exfalso].
    rewrite (Hcons q rho r vs HOk Hvs) in Hin; [done| |].
    - intros ->. by apply elem_of_nil in Hv.
    - apply (ltb_le_trans ltb SW (bd q r) (dist q v) rho); [|done]. by apply (Hbd q r vs). }
  assert (forall cc, sumf cc rs = sumf (fun r => if inside q rho r then cc r else 0) S) as Ers.
  { intros cc. by rewrite (sumf_perm cc _ _ Hrs), sumf_filter. }
  assert (sumf (c rho) rs = cntb (within ltb (dist q) rho) (concat values)) as Erho.
  { rewrite Ers, total_cnt. apply sumf_ext. intros r Hr. destruct (inside q rho r) eqn:E; [done|]. symmetry. by apply Hout. }
  assert (forall rho', sumf (c rho') rs <= sumf (c rho') S) as Hle.
  { intros rho'. rewrite Ers. apply sumf_mono. intros r _. destruct (inside q rho r); lia. }
  assert (forall rho', cntb (within ltb (dist q) rho') a = min k (cntb (within ltb (dist q) rho') (concat values))) as Hcount.
  { intros rho'. pose proof (HCC rho') as H. rewrite (cntb_perm _ _ _ Hrow), !cntb_map in H.
    change (cntb (fun x => within ltb snd rho' (cb q x, dist q x)) ?l) with (cntb (within ltb (dist q) rho') l) in H. rewrite H, Ec, sumf_min.
    rewrite total_cnt. change (sumf (fun r => cntb (within ltb (dist q) rho') (vr r)) (seq 0 P)) with (sumf (c rho') S).
    destruct (ltb rho rho') eqn:E.
    - (* beyond the radius: both sides are k or everything *)
      assert (forall r, c rho r <= c rho' r) as Hm.
      { intros r. unfold c. apply cntb_mono. intros v _. unfold within. rewrite !negb_true_iff. intros H1.
        apply (ltb_le_trans ltb SW (dist q v) rho rho'); [done|]. destruct (ltb rho' rho) eqn:E'; [|done]. pose proof (sw_trans _ SW _ _ _ E E') as Hc. by rewrite (sw_irrefl _ SW) in Hc. }
      assert (sumf (c rho) rs <= sumf (c rho') rs) by (apply sumf_mono; intros; apply Hm).
      pose proof (Hle rho').
      assert (sumf (c rho') S <= length (concat values)). { rewrite total_len. apply sumf_mono. intros r _. unfold c. apply cntb_le. }
      lia.
    - assert (sumf (c rho') rs = sumf (c rho') S) as ->; [|done]. rewrite Ers. apply sumf_ext. intros r Hr. destruct (inside q rho r) eqn:Ein; [done|].
      pose proof (Hout r Hr Ein) as H0. unfold c in *.
      assert (cntb (within ltb (dist q) rho') (vr r) <= cntb (within ltb (dist q) rho) (vr r)); [|lia].
      apply cntb_mono. intros v _. unfold within. rewrite !negb_true_iff. intros H1. by apply (ltb_le_trans ltb SW (dist q v) rho' rho). }
  assert (length a = min k (length (concat values))) as Hlen.
  { rewrite map_length in HL. rewrite HL, (Permutation_length Hrow), map_length, El, sumf_min.
    assert (sumf (fun r => length (vr r)) rs <= length (concat values)). { rewrite Ers, total_len. apply sumf_mono. intros r _. destruct (inside q rho r); lia. }
    assert (sumf (c rho) rs <= sumf (fun r => length (vr r)) rs). { apply sumf_mono. intros r _. unfold c. apply cntb_le. }
    lia. }
  split; [|split].
  - (* a sub-collection of all values *)
    assert (exists rest2, concat values ≡ₚ concat vss ++ rest2) as [rest2 Hr2].
    { assert (exists rest1, concat values ≡ₚ concat (map (fun r => vr r) rs) ++ rest1) as [rest1 Hr1].
      { exists (concat (map (fun r => vr r) (List.filter (fun r => negb (inside q rho r)) S))).
        rewrite <- concat_app, <- map_app. rewrite <- (seq_lookup_map [] values) at 1. apply concat_perm, Permutation_map. rewrite Hrs. fold S.
        clear. induction S as [|r l IH]; [done|]. simpl. destruct (inside q rho r); simpl; [by f_equiv|]. rewrite <- Permutation_middle. by f_equiv. }
      assert (exists rest2, concat (map (fun r => vr r) rs) ≡ₚ concat vss ++ rest2) as [rest2 Hr2].
      { clear -HF. induction HF as [|r vs rs vss (_&rest&HP&_) HF [rest2 IH]]; [by exists []|].
        exists (rest ++ rest2). simpl. rewrite HP, IH. rewrite <- !app_assoc. f_equiv. rewrite !app_assoc. f_equiv. apply Permutation_app_comm. }
      exists (rest2 ++ rest1). by rewrite Hr1, Hr2, app_assoc. }
    apply (count_Closest ltb SW (dist q) k (concat values) a (rest' ++ rest2)); [|done|done].
    rewrite Hr2, HP3. by rewrite app_assoc.
  - intros i j x y Hij Hx Hy. apply (HA i j (cb q x, dist q x) (cb q y, dist q y) Hij); change (map ?f ?l) with (f <$> l); by rewrite list_lookup_fmap, ?Hx, ?Hy.
  - by rewrite map_map.
Qed.

Lemma nearest_main : forall preds : list (list Q), (forall s i p q, preds !! s = Some p -> p !! i = Some q -> Ok q) -> length preds = P ->
  nearest_queryDispatch ltb getK (length <$> values)
    (fun q rs => KNearest ltb inf (bd q) (getK q) (seq 0 P) rs)
    (fun '(q, rho) rs => rs ≡ₚ List.filter (inside q rho) (seq 0 P))
    Ans dist cb preds
    (fun s out offset => forall p, preds !! s = Some p ->
       exists answers, Forall2 (fun q a => Closest ltb (dist q) (getK q) (concat values) a /\ Nearer ltb (dist q) a) p answers /\
         CrsAnswerOrdered (zip_with (fun q a => map (cb q) a) p answers) out offset).
Proof.
  intros preds HOks HPr. unfold nearest_queryDispatch. destruct (Nat.eqb_spec (sum_list (length <$> values)) 0) as [E|_].
  { intros s p Hp p' Hp'. assert (p' = p) as -> by congruence.
    assert (concat values = []) as ->. { apply nil_length_inv. by rewrite length_concat. }
    exists (map (fun _ => []) p). split.
    - clear. induction p as [|q p IH]; simpl; constructor; [|done]. split; [|intros i j a b _ Ha; done]. split; [simpl; lia|]. exists []. split; [done|]. intros a b Ha. by apply elem_of_nil in Ha.
    - assert (forall n, concat (take n (zip_with (fun q (a : list V) => map (cb q) a) p (map (fun _ => []) p))) = []) as HN.
      { clear. induction p as [|q p IH]; intros [|n]; simpl; auto. }
      split; [split|].
      + rewrite replicate_length, zip_with_length, map_length. lia.
      + intros q Hq. rewrite zip_with_length, map_length in Hq. rewrite lookup_replicate_2 by lia. by rewrite HN.
      + pose proof (HN (length (zip_with (fun q (a : list V) => map (cb q) a) p (map (fun _ => []) p)))) as H0. rewrite firstn_all in H0. by rewrite H0. }
  unfold queryDispatch2RoundImpl. intros garbage HG.
  exists (fun s fs => forall p, preds !! s = Some p -> length fs = length p /\ forall i q f, p !! i = Some q -> fs !! i = Some f ->
    min (getK q) (length (concat values)) <= cntb (within ltb (dist q) f) (concat values)).
  split.
  - (* phase I *)
    unfold phaseI. apply TopQuery_ok. intros TS HTS.
    assert (Forall2 (fun p ts => length p = length ts) preds TS) as HL2. { eapply Forall2_impl; [exact HTS|]. intros p ts H. by eapply Forall2_length. }
    assert (forall ts rs r, ts ∈ TS -> rs ∈ ts -> r ∈ rs -> r < P) as Hb.
    { intros ts rs r Hts Hrs Hr. apply elem_of_list_lookup in Hts as [s Hts]. destruct (Forall2_lookup_r _ _ _ _ _ HTS Hts) as (p&_&HF).
      apply elem_of_list_lookup in Hrs as [j Hrs]. destruct (Forall2_lookup_r _ _ _ _ _ HF Hrs) as (q&_&rs0&H0&H1).
      rewrite H1 in Hr. destruct (kn_sub _ _ _ _ _ _ H0) as [rest Hrest]. assert (r ∈ seq 0 P) as Hs; [rewrite Hrest; apply elem_of_app; by left|]. apply elem_of_seq in Hs. lia. }
    apply Truncate_ok; [done|intros ts rs r Hts Hrs Hr; rewrite fmap_length; by eapply Hb|].
    intros TS' HTS'.
    assert (forall s ts', TS' !! s = Some ts' -> exists p ts, preds !! s = Some p /\ TS !! s = Some ts /\ length p = length ts' /\
      forall i q rs rs', p !! i = Some q -> ts !! i = Some rs -> ts' !! i = Some rs' -> exists m, needed (getK q) (length <$> values) 0 rs = Some m /\ rs' = take m rs) as HT'.
    { intros s ts' Hts'. destruct (Forall2_lookup_r _ _ _ _ _ HTS' Hts') as ([p ts]&Hz&HF). apply lookup_zip_with_Some in Hz as (?&?&[= <- <-]&Hp&Hts).
      exists p, ts. split; [done|]. split; [done|]. pose proof (Forall2_length _ _ _ HF) as Hl. rewrite zip_with_length in Hl.
      pose proof (Forall2_lookup_lr _ _ _ _ _ _ HL2 Hp Hts) as Hl'. simpl in Hl'. split; [lia|].
      intros i q rs rs' Hq Hrs Hrs'. apply (Forall2_lookup_lr _ _ _ i (q, rs) rs' HF); [apply lookup_zip_with_Some; eauto|done]. }
    assert (length TS' = length preds) as HLT. { rewrite <- (Forall2_length _ _ _ HTS'), zip_with_length, <- (Forall2_length _ _ _ HL2). lia. }
    apply forward_ok.
    + apply Forall2_same_length_lookup. split; [done|]. intros s p ts' Hp Hts'. destruct (HT' s ts' Hts') as (p'&ts&Hp'&_&Hl&_). congruence.
    + intros ts' rs' r Hts' Hrs' Hr. apply elem_of_list_lookup in Hts' as [s Hts']. destruct (HT' s ts' Hts') as (p&ts&Hp&Hts&Hl&H).
      apply elem_of_list_lookup in Hrs' as [i Hrs']. destruct (lookup_lt_is_Some_2 p i) as [q Hq]; [apply lookup_lt_Some in Hrs'; lia|].
      pose proof (Forall2_lookup_lr _ _ _ _ _ _ HL2 Hp Hts) as Hl'. simpl in Hl'.
      destruct (lookup_lt_is_Some_2 ts i) as [rs Hrs]; [apply lookup_lt_Some in Hq; lia|].
      destruct (H i q rs rs' Hq Hrs Hrs') as (m&_&->). rewrite HPr. apply (Hb ts rs r); [by eapply elem_of_list_lookup_2|by eapply elem_of_list_lookup_2|].
      apply elem_of_take in Hr as (j&Hj&_). by eapply elem_of_list_lookup_2.
    + intros s p ts' vals off R Hp Hts' HR [HO (L&HLR&->)] p' Hp'. assert (p' = p) as -> by congruence. clear Hp'.
      apply IsOffsets_run in HO. subst off.
      assert (length <$> R = length <$> L) as ->. { clear -HLR. induction HLR as [|a b l k E H IH]; csimpl; [done|]. by rewrite IH, (Permutation_length E). }
      destruct (HT' s ts' Hts') as (p'&ts&Hp'&Hts&Hl&H). assert (p' = p) as -> by congruence. clear Hp'.
      pose proof (Forall2_length _ _ _ HR) as HRl. rewrite zip_with_length in HRl. pose proof (Forall2_length _ _ _ HLR) as HLl.
      pose proof (Forall2_lookup_lr _ _ _ _ _ _ HL2 Hp Hts) as Hl'. simpl in Hl'.
      pose proof (Forall2_lookup_lr _ _ _ _ _ _ HTS Hp Hts) as HTop.
      assert (forall i q row, p !! i = Some q -> L !! i = Some row -> exists rs rs0 m ls, rs ≡ₚ rs0 /\ KNearest ltb inf (bd q) (getK q) (seq 0 P) rs0 /\
        needed (getK q) (length <$> values) 0 rs = Some m /\ Forall2 (fun r l => exists vs, Ans r q vs /\ l = map (dist q) vs) (take m rs) ls /\ row ≡ₚ concat ls) as Hrow.
      { intros i q row Hq Hrow. destruct (Forall2_lookup_l _ _ _ _ _ HTop Hq) as (rs&Hrs&rs0&HK&HP0).
        destruct (lookup_lt_is_Some_2 ts' i) as [rs' Hrs']; [apply lookup_lt_Some in Hq; lia|].
        destruct (H i q rs rs' Hq Hrs Hrs') as (m&Hm&->). destruct (Forall2_lookup_l _ _ _ _ _ HLR Hrow) as (row0&Hrow0&HPr0).
        destruct (Forall2_lookup_lr _ _ _ i (q, take m rs) row0 HR) as (ls&Hls&->); [apply lookup_zip_with_Some; eauto|done|].
        exists rs, rs0, m, ls. done. }
      apply Farthest_ok; [done|lia|by eapply HG| |].
      * intros i q row Hq Hrw Hne. destruct (Hrow i q row Hq Hrw) as (rs&rs0&m&ls&_&_&_&HF&HPl). apply (row_k q (take m rs) ls HF).
        intros E0. apply Hne. rewrite E0 in HPl. by apply Permutation_nil_r in HPl.
      * intros far HLf HFar p' Hp'. assert (p' = p) as -> by congruence. split; [done|]. intros i q f Hq Hf.
        destruct (lookup_lt_is_Some_2 L i) as [row Hrw]; [apply lookup_lt_Some in Hq; lia|].
        destruct (lookup_lt_is_Some_2 (garbage s) i) as [g Hg]; [rewrite (HG s p Hp); by eapply lookup_lt_Some|].
        destruct (Hrow i q row Hq Hrw) as (rs&rs0&m&ls&H1&H2&H3&H4&H5). apply (radius_ok q rs rs0 m ls row g f); [by eapply HOks|done..|]. by eapply HFar.
  - (* phase II *)
    intros farthest HLf HFar. unfold phaseII. apply TopQuery_ok. intros TS HTS.
    assert (forall s p ts, preds !! s = Some p -> TS !! s = Some ts -> exists fs, farthest !! s = Some fs /\ length fs = length p /\ length p = length ts /\
      forall i q rho rs, p !! i = Some q -> fs !! i = Some rho -> ts !! i = Some rs -> rs ≡ₚ List.filter (inside q rho) (seq 0 P) /\
        min (getK q) (length (concat values)) <= cntb (within ltb (dist q) rho) (concat values)) as HT.
    { intros s p ts Hp Hts. destruct (lookup_lt_is_Some_2 farthest s) as [fs Hfs]; [rewrite HLf; by eapply lookup_lt_Some|].
      destruct (HFar s fs Hfs p Hp) as [Hlf Hrad]. exists fs. split; [done|]. split; [done|].
      pose proof (Forall2_lookup_lr _ _ _ s (zip p fs) ts HTS) as HF. feed specialize HF; [apply lookup_zip_with_Some; eauto|done|].
      pose proof (Forall2_length _ _ _ HF) as Hl. rewrite zip_with_length in Hl. split; [lia|].
      intros i q rho rs Hq Hrho Hrs. split; [|by eapply Hrad].
      destruct (Forall2_lookup_lr _ _ _ i (q, rho) rs HF) as (rs0&H0&H1); [apply lookup_zip_with_Some; eauto|done|]. simpl in H0. by rewrite H1. }
    assert (length TS = length preds) as HLT. { rewrite <- (Forall2_length _ _ _ HTS), zip_with_length. lia. }
    apply forward_ok.
    + apply Forall2_same_length_lookup. split; [done|]. intros s p ts Hp Hts. by destruct (HT s p ts Hp Hts) as (fs&_&_&Hl&_).
    + intros ts rs r Hts Hrs Hr. apply elem_of_list_lookup in Hts as [s Hts]. destruct (lookup_lt_is_Some_2 preds s) as [p Hp]; [apply lookup_lt_Some in Hts; lia|].
      destruct (HT s p ts Hp Hts) as (fs&_&Hl1&Hl2&H). apply elem_of_list_lookup in Hrs as [i Hrs]. pose proof (lookup_lt_Some _ _ _ Hrs).
      destruct (lookup_lt_is_Some_2 p i) as [q Hq]; [lia|]. destruct (lookup_lt_is_Some_2 fs i) as [rho Hrho]; [lia|].
      destruct (H i q rho rs Hq Hrho Hrs) as [HE _]. rewrite HE in Hr. apply list_filter_elem in Hr as [Hr _]. apply elem_of_seq in Hr. lia.
    + intros s p ts vals off R Hp Hts HR [HO (L&HLR&->)].
      apply IsOffsets_run in HO. subst off.
      assert (length <$> R = length <$> L) as ->. { clear -HLR. induction HLR as [|a b l k E H IH]; csimpl; [done|]. by rewrite IH, (Permutation_length E). }
      exists (concat L). split; [apply init_Some|]. intros p' Hp'. assert (p' = p) as -> by congruence. clear Hp'.
      destruct (HT s p ts Hp Hts) as (fs&_&Hl1&Hl2&H).
      pose proof (Forall2_length _ _ _ HR) as HRl. rewrite zip_with_length in HRl. pose proof (Forall2_length _ _ _ HLR) as HLl.
      apply (filterResults_ok ltb SW); [lia|]. intros poppeds out offset HPop HCrs p' Hp'. assert (p' = p) as -> by congruence.
      destruct (list_choice (zip p poppeds) (fun i '(q, popped) a => (Closest ltb (dist q) (getK q) (concat values) a /\ Nearer ltb (dist q) a) /\ map fst popped = map (cb q) a)) as (answers&HLa&HAns).
      { intros i [q popped] Hi. apply lookup_zip_with_Some in Hi as (?&?&[= <- <-]&Hq&Hpop). pose proof (lookup_lt_Some _ _ _ Hq).
        destruct (lookup_lt_is_Some_2 L i) as [row Hrow]; [lia|]. destruct (lookup_lt_is_Some_2 fs i) as [rho Hrho]; [lia|]. destruct (lookup_lt_is_Some_2 ts i) as [rs Hrs]; [lia|].
        destruct (H i q rho rs Hq Hrho Hrs) as [HE Hrad].
        destruct (Forall2_lookup_lr _ _ _ i (q, row) popped HPop) as [HC HA]; [apply lookup_zip_with_Some; eauto|done|].
        destruct (Forall2_lookup_l _ _ _ _ _ HLR Hrow) as (row0&Hrow0&HPr0).
        destruct (Forall2_lookup_lr _ _ _ i (q, rs) row0 HR) as (ls&Hls&->); [apply lookup_zip_with_Some; eauto|done|].
        assert (exists vss, Forall2 (fun r vs => Ans r q vs) rs vss /\ concat ls = map (fun v => (cb q v, dist q v)) (concat vss)) as (vss&Hvss&Evss).
        { clear -Hls. induction Hls as [|r l rs ls (vs&HC&->) HF (vss&IH1&IH2)]; [by exists []|]. exists (vs :: vss). split; [by constructor|]. simpl. by rewrite map_app, IH2. }
        destruct (final_ok q rho rs vss row popped) as (a&H1&H2&H3); [by eapply HOks|done|done|done|by rewrite HPr0, Evss|done|done|]. exists a. done. }
      rewrite zip_with_length in HLa. pose proof (Forall2_length _ _ _ HPop) as HLp. rewrite zip_with_length in HLp.
      exists answers. split.
      * apply Forall2_same_length_lookup. split; [lia|]. intros i q a Hq Ha. destruct (lookup_lt_is_Some_2 poppeds i) as [popped Hpop]; [apply lookup_lt_Some in Hq; lia|].
        destruct (HAns i (q, popped) a) as [Hx _]; [apply lookup_zip_with_Some; eauto|done|done].
      * assert (zip_with (fun q a => map (cb q) a) p answers = map (map fst) poppeds) as ->; [|done].
        apply list_eq. intros i. change (map (map fst) poppeds) with (map fst <$> poppeds). rewrite list_lookup_fmap, lookup_zip_with.
        destruct (p !! i) as [q|] eqn:Hq.
        -- destruct (lookup_lt_is_Some_2 poppeds i) as [popped Hpop]; [apply lookup_lt_Some in Hq; lia|]. destruct (lookup_lt_is_Some_2 answers i) as [a Ha]; [apply lookup_lt_Some in Hq; lia|].
           rewrite Hpop, Ha. simpl. destruct (HAns i (q, popped) a) as [_ ->]; [apply lookup_zip_with_Some; eauto|done|done].
        -- apply lookup_ge_None in Hq. rewrite (lookup_ge_None_2 poppeds) by lia. done.
Qed.
End Nearest.

(** ** C34 *)

(** Nearest queries on a distributed tree.  Rank r holds [values !! r]; [dist q v] is the distance from query q to
    value v, [bd q r] the distance from q to the bounds of rank r's tree, [inside q rho r] whether the top tree reports
    rank r for the phase-II predicate with radius rho.  The trees answer as C05 says: the top tree by the k ranks with
    the nearest bounds ([KNearest]), the tree of rank r by the k closest of its values ([Closest]).  The top tree's
    spatial query answers by exactly the ranks inside, as C03 says.

    Assumed: distances are finite; a rank's bounds are no farther than any of its values; the bounds of a rank without
    values are infinitely far; and the phase-II predicate reports every nonempty rank whose bounds are within the
    radius (C57 is about box queries, where that fails by rounding).  Then under every schedule, whatever the
    uninitialised radii held, no rank reads outside a view or sends to a rank that does not expect it, and the answer of
    every query is k closest values of all ranks, ascending. *)
Theorem C34_nearest {Q V C D} (ltb : D -> D -> bool) (inf : D) (getK : Q -> nat) (dist : Q -> V -> D) (bd : Q -> nat -> D)
    (inside : Q -> D -> nat -> bool) (cb : Q -> V -> C) (values : list (list V)) (preds : list (list Q)) :
  StrictWeak ltb ->
  (forall q v, q ∈ concat preds -> v ∈ concat values -> ltb (dist q v) inf = true) ->
  (forall q r vs v, q ∈ concat preds -> values !! r = Some vs -> v ∈ vs -> ltb (dist q v) (bd q r) = false) ->
  (forall q r, q ∈ concat preds -> values !! r = Some [] -> ltb (bd q r) inf = false) ->
  (forall q rho r vs, q ∈ concat preds -> values !! r = Some vs -> vs <> [] -> ltb rho (bd q r) = false -> inside q rho r = true) ->
  length preds = length values ->
  nearest_queryDispatch ltb getK (length <$> values)
    (fun q rs => KNearest ltb inf (bd q) (getK q) (seq 0 (length values)) rs)
    (fun '(q, rho) rs => rs ≡ₚ List.filter (inside q rho) (seq 0 (length values)))
    (fun r q vs => Closest ltb (dist q) (getK q) (default [] (values !! r)) vs)
    dist cb preds
    (fun s out offset => forall p, preds !! s = Some p ->
       exists answers, Forall2 (fun q a => Closest ltb (dist q) (getK q) (concat values) a /\ Nearer ltb (dist q) a) p answers /\
         CrsAnswerOrdered (zip_with (fun q a => map (cb q) a) p answers) out offset).
Proof.
  intros. apply (nearest_main ltb inf getK dist bd inside cb values) with (Ok := fun q => q ∈ concat preds); auto.
  intros s i p q Hp Hq. apply elem_of_concat. exists p. split; by eapply elem_of_list_lookup_2.
Qed.

(** The answer C05 proves for one tree is the one asked of a rank's tree here. *)
Theorem C34_tree_answer {D} (ltb : D -> D -> bool) inf (dl : nat -> D) k vals out :
  (forall o, o ∈ vals -> ltb (dl o) inf = true) -> KNearest ltb inf dl k vals out -> Closest ltb dl k vals out.
Proof.
  intros Hf HK. split.
  - rewrite (kn_len _ _ _ _ _ _ HK). f_equal. clear -Hf. induction vals as [|o vals IH]; [done|].
    rewrite filter_cons_True by (apply Hf; left). simpl. f_equal. apply IH. intros; apply Hf; by right.
  - destruct (kn_sub _ _ _ _ _ _ HK) as [rest Hr]. exists rest. split; [done|]. by apply (kn_min _ _ _ _ _ _ HK).
Qed.

(** ** C35 *)

(** filterResults: candidates in compressed rows, one row per query (values and distances side by side), are cut down
    to the k closest per query, ascending by distance; offsets and values agree and no cell is left unwritten. *)
Theorem C35_filterResults {Q C D} (ltb : D -> D -> bool) (getK : Q -> nat) (p : list Q) (rows : list (list (C * D))) offset :
  StrictWeak ltb -> length p = length rows -> IsOffsets rows offset ->
  filterResults ltb getK p (map fst (concat rows)) (map snd (concat rows)) offset (fun out new_offset =>
    exists kept, Forall2 (fun '(q, row) l => Closest ltb snd (getK q) row l /\ Nearer ltb snd l) (zip p rows) kept /\
      CrsAnswerOrdered (map (map fst) kept) out new_offset).
Proof.
  intros SW HL HO. apply IsOffsets_run in HO. subst offset. apply (filterResults_ok ltb SW); [done|].
  intros poppeds out offset HP HC. exists poppeds. done.
Qed.

(** ** Examples *)

(** Three ranks with integer values, the last one empty; a query is a point and a number of neighbours. *)
Definition exn_values : list (list Z) := [[1; 5]; [3]; []]%Z.
Definition exn_bounds : list (Z * Z) := [(1, 5); (3, 3); (1000, -1000)]%Z.
Definition exn_dist (q : Z * nat) (v : Z) : Z := Z.abs (q.1 - v).
Definition exn_bd (q : Z * nat) (r : nat) : Z :=
  match exn_bounds !! r with
  | Some (lo, hi) => if (hi <? lo)%Z then 1000 else Z.max 0 (Z.max (lo - q.1) (q.1 - hi))
  | None => 1000
  end%Z.
Definition exn_inside (q : Z * nat) (rho : Z) (r : nat) : bool := negb (rho <? exn_bd q r)%Z.
Definition exn_preds : list (list (Z * nat)) := [[(2%Z, 2)]; [(9%Z, 1)]; []].

Example C34_example :
  (forall q v, q ∈ concat exn_preds -> v ∈ concat exn_values -> (exn_dist q v <? 1000)%Z = true) /\
  (forall q r vs v, exn_values !! r = Some vs -> v ∈ vs -> (exn_dist q v <? exn_bd q r)%Z = false) /\
  (forall q r, exn_values !! r = Some [] -> (exn_bd q r <? 1000)%Z = false) /\
  (forall q rho r vs, exn_values !! r = Some vs -> vs <> [] -> (rho <? exn_bd q r)%Z = false -> exn_inside q rho r = true).
Proof.
  split; [|split; [|split]].
  - intros q v Hq Hv. simpl in Hq, Hv.
    repeat (apply elem_of_cons in Hq as [->|Hq]); try (by apply elem_of_nil in Hq);
    repeat (apply elem_of_cons in Hv as [->|Hv]); try (by apply elem_of_nil in Hv); done.
  - intros [x k] r vs v Hvs Hv. destruct r as [|[|[|r]]]; simpl in Hvs; try discriminate; injection Hvs as <-;
    repeat (apply elem_of_cons in Hv as [->|Hv]); try (by apply elem_of_nil in Hv); apply Z.ltb_ge; unfold exn_dist, exn_bd; cbn [exn_bounds lookup list_lookup fst snd Z.ltb Z.compare Pos.compare Pos.compare_cont]; lia.
  - intros [x k] r Hvs. destruct r as [|[|[|r]]]; simpl in Hvs; try discriminate. done.
  - intros q rho r vs _ _ H. unfold exn_inside. by rewrite H.
Qed.
Example C35_example : filterResults Z.ltb snd [((), 2); ((), 3); ((), 1)] (map fst (concat [[(10, 7); (11, 2); (12, 5)]; []; [(13, 1)]]%Z))
    (map snd (concat [[(10, 7); (11, 2); (12, 5)]; []; [(13, 1)]]%Z)) [0; 3; 3; 4]
  (fun out new_offset => out = [Some 11; Some 12; Some 13]%Z /\ new_offset = [0; 2; 2; 3]).
Proof.
  exists [2; 0; 1]. split; [done|]. intros new_offset order HO.
  assert (forall o, In o [[0;1;2];[0;2;1];[1;0;2];[1;2;0];[2;0;1];[2;1;0]] -> exists n out, last new_offset = Some n /\
    filter_loop Z.ltb snd [((), 2); ((), 3); ((), 1)] [10; 11; 12; 13]%Z [7; 2; 5; 1]%Z [0; 3; 3; 4] new_offset o (replicate n None) = Some out /\ out = [Some 11; Some 12; Some 13]%Z /\ new_offset = [0; 2; 2; 3]) as H.
  { intros o Ho. exists 3, [Some 11; Some 12; Some 13]%Z. repeat (destruct Ho as [<-|Ho]; [vm_compute; done|]). destruct Ho. }
  apply H. pose proof (Permutation_length HO) as HL. simpl in HL.
  destruct order as [|a [|b [|c [|d order]]]]; try discriminate.
  assert (forall x, In x [a; b; c] -> x = 0 \/ x = 1 \/ x = 2) as Hx. { intros x Hx. apply (Permutation_in _ HO) in Hx. simpl in Hx. lia. }
  assert (NoDup [a; b; c]) as HN. { rewrite HO. apply NoDup_ListNoDup, seq_NoDup. }
  apply NoDup_cons in HN as [Ha HN]. apply NoDup_cons in HN as [Hb _]. rewrite !elem_of_cons, elem_of_nil in Ha. rewrite !elem_of_cons, elem_of_nil in Hb. clear HO HL.
  destruct (Hx a ltac:(simpl; tauto)) as [->|[->| ->]], (Hx b ltac:(simpl; tauto)) as [->|[->| ->]], (Hx c ltac:(simpl; tauto)) as [->|[->| ->]]; clear Hx; first [exfalso; lia|repeat first [left; reflexivity|right]].
Qed.

(** The program runs: on this instance there is a schedule, with answers of the trees as assumed, that reaches the end.
    So the theorem does not hold for want of executions. *)
Lemma FillAll_run {X} offsets (xss : list (list X)) post : FillAll offsets xss post ->
  exists bufs, mapM (fun s => off ← offsets !! s; xs ← xss !! s; n ← last off; fill (cells (default [] (offsets !! s))) xs (replicate n None))
    (seq 0 (length offsets)) = Some bufs /\ post bufs.
Proof. intros H. apply (H (fun s => cells (default [] (offsets !! s)))). intros s off E. by rewrite E. Qed.
Lemma WithPlan_run plans post : WithPlan plans post -> exists ps pl, plans = Some ps /\ prepare None ps = Some pl /\ post pl.
Proof. intros (ps&E&H). destruct (H None) as (pl&E'&H'); [done|]. by exists ps, pl. Qed.
Lemma ExchangeAll_run {X} pl (exports : list (list (option X))) post : ExchangeAll pl exports post ->
  exists imports, exchange pl (fun s => seq 0 (length (default [] (exports !! s)))) (fun r => seq 0 (length (default ([], []) (pl_recv pl !! r)).1)) exports = Some imports /\ post imports.
Proof. intros H. apply H; [intros s xs E|intros r srcs soffs E]; by rewrite E. Qed.
Lemma IsOffsets_mk {A} (R : list (list A)) : IsOffsets R (0 :: run_offsets 0 (length <$> R)).
Proof.
  split; [simpl; by rewrite run_offsets_length, fmap_length|].
  intros q Hq. rewrite run_offsets_lookup by (rewrite fmap_length; lia). simpl. by rewrite length_concat_take.
Qed.
Lemma CrsAnswer_mk {A} (R : list (list A)) out off : out = map Some (concat R) -> off = 0 :: run_offsets 0 (length <$> R) -> CrsAnswer R out off.
Proof. intros -> ->. split; [apply IsOffsets_mk|]. exists R. split; [|done]. apply Forall2_same_length_lookup. split; [done|]. intros i x y Hx Hy. assert (x = y) as -> by congruence. done. Qed.
Ltac runstep H := first
  [ apply WithPlan_run in H as (?ps&?pl&?E1&?E2&H); vm_compute in E1; injection E1 as <-; vm_compute in E2; injection E2 as <-
  | apply FillAll_run in H as (?b&?E1&H); vm_compute in E1; injection E1 as <-
  | apply ExchangeAll_run in H as (?i&?E1&H); vm_compute in E1; injection E1 as <- ].

Lemma closest_mk {V} (d : V -> Z) k vals out rest : vals ≡ₚ out ++ rest -> length out = min k (length vals) ->
  forallb (fun a => forallb (fun b => negb (d b <? d a)%Z) rest) out = true -> Closest Z.ltb d k vals out.
Proof.
  intros HP HL H. split; [done|]. exists rest. split; [done|]. intros a b Ha Hb. rewrite forallb_forall in H. apply elem_of_list_In in Ha, Hb.
  specialize (H a Ha). rewrite forallb_forall in H. specialize (H b Hb). by apply negb_true_iff in H.
Qed.
Definition exn_program := nearest_queryDispatch Z.ltb (@snd Z nat) (length <$> exn_values)
    (fun q rs => KNearest Z.ltb 1000%Z (exn_bd q) q.2 (seq 0 3) rs)
    (fun '(q, rho) rs => rs ≡ₚ List.filter (exn_inside q rho) (seq 0 3))
    (fun r q vs => Closest Z.ltb (exn_dist q) q.2 (default [] (exn_values !! r)) vs) exn_dist (fun _ v => v) exn_preds.
Example C34_not_vacuous : ~ exn_program (fun _ _ _ => False).
Proof.
  intros H. unfold exn_program, nearest_queryDispatch in H. change (sum_list (length <$> exn_values) =? 0) with false in H. cbv iota in H.
  destruct (H (fun s => match s with 0 => [77%Z] | 1 => [78%Z] | _ => [] end)) as (Far&H1&H2); [by intros [|[|[|s]]] p [= <-]|]. clear H.
  assert (Far 0 [3%Z] /\ Far 1 [4%Z] /\ Far 2 []) as (F0&F1&F2).
  { unfold phaseI in H1. destruct (H1 [[Some 0; Some 1]; [Some 0]; []] [[0; 2]; [0; 1]; [0]]) as (rks&E&H); [done|done| |].
    { intros [|[|[|s]]] p rk off [= <-] [= <-] [= <-].
      - exists [[0; 1]]. split; [|by apply CrsAnswer_mk]. constructor; [|done].
        split; [by exists [2]|done|intros o Ho; repeat (apply elem_of_cons in Ho as [->|Ho]; [done|]); by apply elem_of_nil in Ho| |].
        + intros [|[|i]] [|[|j]] a b Hij Ha Hb; try lia; simplify_eq/=; done.
        + intros rest Hr a b Ha Hb. apply (Permutation_app_inv_l [0; 1] [2]) in Hr. apply Permutation_length_1_inv in Hr as ->.
          apply elem_of_list_singleton in Hb as ->. repeat (apply elem_of_cons in Ha as [->|Ha]; [done|]); by apply elem_of_nil in Ha.
      - exists [[0]]. split; [|by apply CrsAnswer_mk]. constructor; [|done].
        split; [by exists [1; 2]|done|intros o Ho; repeat (apply elem_of_cons in Ho as [->|Ho]; [done|]); by apply elem_of_nil in Ho| |].
        + intros [|i] [|j] a b Hij Ha Hb; try lia; simplify_eq/=; done.
        + intros rest Hr a b Ha Hb. apply (Permutation_app_inv_l [0] [1; 2]) in Hr. rewrite <- Hr in Hb. apply elem_of_list_singleton in Ha as ->.
          repeat (apply elem_of_cons in Hb as [->|Hb]; [done|]); by apply elem_of_nil in Hb.
      - exists []. split; [constructor|by apply CrsAnswer_mk]. }
    vm_compute in E. injection E as <-.
    destruct H as (countss&E&H). vm_compute in E. injection E as <-. cbv zeta in H.
    destruct (H (fun s => match s with 0 | 1 => [(0, 0)] | _ => [] end)) as (nr&E&H'); [by intros [|[|[|s]]] off [= <-]|]. clear H. rename H' into H.
    vm_compute in E. injection E as <-.
    unfold forwardQueriesAndCommunicateResults, forwardQueries in H. repeat runstep H.
    destruct H as (qss&E&H). vm_compute in E. injection E as <-.
    specialize (H [[Some 1; Some 3; Some 4]%Z; []; []] [[0; 2; 3]; [0]; [0]] eq_refl eq_refl).
    feed specialize H.
    { intros [|[|[|s]]] qs out off [= <-] [= <-] [= <-]; [|exists []; split; [constructor|by apply CrsAnswer_mk]..].
      exists [[1; 3]; [4]]%Z. split; [|by apply CrsAnswer_mk]. constructor; [|constructor; [|done]].
      - exists [1; 5]%Z. split; [|done]. by apply (closest_mk _ _ _ _ []).
      - exists [5]%Z. split; [|done]. apply (closest_mk _ _ _ _ [1%Z]); [apply Permutation_swap|done|done]. }
    destruct H as (rks&E&is&E'&H). vm_compute in E, E'. injection E as <-. injection E' as <-. repeat runstep H.
    destruct H as (_&_&H). split; [|split].
    - destruct (H 0 _ _ _ eq_refl eq_refl eq_refl) as (_&js&E&H0). vm_compute in E. injection E as <-.
      destruct (H0 [0; 0] ltac:(done)) as (cs&E&H3). vm_compute in E. injection E as <-.
      specialize (H3 [(0, Some 1%Z); (0, Some 3%Z)] ltac:(done) ltac:(repeat constructor) _ eq_refl).
      destruct H3 as (ds&E&H3). vm_compute in E. injection E as <-. destruct (H3 [0] ltac:(done)) as (ds'&f&E&H4). vm_compute in E. by injection E as <- <-.
    - destruct (H 1 _ _ _ eq_refl eq_refl eq_refl) as (_&js&E&H0). vm_compute in E. injection E as <-.
      destruct (H0 [0] ltac:(done)) as (cs&E&H3). vm_compute in E. injection E as <-.
      specialize (H3 [(0, Some 4%Z)] ltac:(done) ltac:(repeat constructor) _ eq_refl).
      destruct H3 as (ds&E&H3). vm_compute in E. injection E as <-. destruct (H3 [0] ltac:(done)) as (ds'&f&E&H4). vm_compute in E. by injection E as <- <-.
    - destruct (H 2 _ _ _ eq_refl eq_refl eq_refl) as (_&js&E&H0). vm_compute in E. injection E as <-.
      destruct (H0 [] ltac:(done)) as (cs&E&H3). vm_compute in E. injection E as <-.
      specialize (H3 [] ltac:(done) ltac:(repeat constructor) _ eq_refl).
      destruct H3 as (ds&E&H3). vm_compute in E. injection E as <-. destruct (H3 [] ltac:(done)) as (ds'&f&E&H4). vm_compute in E. by injection E as <- <-. }
  clear H1. specialize (H2 [[3]; [4]; []]%Z eq_refl). feed specialize H2; [by intros [|[|[|s]]] fs [= <-]|]. rename H2 into H.
  unfold phaseII in H. destruct (H [[Some 1; Some 0]; [Some 0]; []] [[0; 2]; [0; 1]; [0]]) as (rks&E&H'); [done|done| |].
  { intros [|[|[|s]]] p rk off [= <-] [= <-] [= <-]; [| |exists []; split; [constructor|by apply CrsAnswer_mk]].
    - exists [[1; 0]]. split; [|by apply CrsAnswer_mk]. constructor; [|done]. vm_compute. apply Permutation_swap.
    - exists [[0]]. split; [|by apply CrsAnswer_mk]. constructor; [|done]. done. }
  clear H. rename H' into H. vm_compute in E. injection E as <-.
  unfold forwardQueriesAndCommunicateResults, forwardQueries in H. repeat runstep H.
  destruct H as (qss&E&H). vm_compute in E. injection E as <-.
  specialize (H [[Some (1, 1); Some (5, 3); Some (5, 4)]; [Some (3, 1)]; []]%Z [[0; 2; 3]; [0; 1]; [0]] eq_refl eq_refl).
  feed specialize H.
  { intros [|[|[|s]]] qs out off [= <-] [= <-] [= <-]; [| |exists []; split; [constructor|by apply CrsAnswer_mk]].
    - exists [[(1, 1); (5, 3)]; [(5, 4)]]%Z. split; [|by apply CrsAnswer_mk]. constructor; [|constructor; [|done]].
      + exists [1; 5]%Z. split; [|done]. by apply (closest_mk _ _ _ _ []).
      + exists [5]%Z. split; [|done]. apply (closest_mk _ _ _ _ [1%Z]); [apply Permutation_swap|done|done].
    - exists [[(3, 1)]]%Z. split; [|by apply CrsAnswer_mk]. constructor; [|done]. exists [3]%Z. split; [|done]. by apply (closest_mk _ _ _ _ []). }
  destruct H as (rks&E&is&E'&H). vm_compute in E, E'. injection E as <-. injection E' as <-. repeat runstep H.
  destruct H as (_&_&H). destruct (H 1 _ _ _ eq_refl eq_refl eq_refl) as (_&js&E&H0). vm_compute in E. injection E as <-.
  destruct (H0 [0] ltac:(done)) as (cs&E&H3). vm_compute in E. injection E as <-.
  destruct (H3 [(0, Some (5%Z, 4%Z))] ltac:(done) ltac:(repeat constructor)) as (pairs&E&H4). vm_compute in E. injection E as <-.
  destruct (H4 _ eq_refl) as (counts&E&H5). vm_compute in E. injection E as <-. destruct (H5 [0] ltac:(done)) as (n&out&_&_&[]).
Qed.
Print Assumptions C34_nearest.
Print Assumptions C34_tree_answer.
Print Assumptions C35_filterResults.
Print Assumptions C34_not_vacuous.
