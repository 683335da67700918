(** Proofs about the nearest queries on a distributed tree. *)
From Coq Require Import Sorting.Sorted.
From Verif Require Import Base KernelAlgModel KernelAlgProof PropertiesKernelAlg CrsModel CrsSpec CrsProof HeapModel HeapSpec HeapProof
  DistributorModel DistributorSpec DistributorProof PropertiesDistributor DistTreeModel DistTreeProof DistTreeSpec DistQueryProof.

(** ** Rows of a compressed view *)
Lemma excl_scan_run counts : excl_scan 0 (counts ++ [0]) = 0 :: run_offsets 0 counts.
Proof.
  apply list_eq. intros q. destruct (decide (q <= length counts)) as [Hq|Hq].
  - rewrite excl_scan_lookup by (rewrite app_length; simpl; lia). rewrite run_offsets_lookup by lia. do 2 f_equal. by rewrite take_app_le by lia.
  - rewrite !lookup_ge_None_2; [done| |].
    + simpl. rewrite run_offsets_length. lia.
    + rewrite excl_scan_length, app_length. simpl. lia.
Qed.
Lemma concat_split {X} (L : list (list X)) i l : L !! i = Some l ->
  concat L = concat (take i L) ++ l ++ concat (drop (S i) L).
Proof. intros H. rewrite <- (take_drop_middle L i l H) at 1. rewrite concat_app. done. Qed.
Lemma row_bounds {X} (L : list (list X)) i l : L !! i = Some l ->
  (0 :: run_offsets 0 (length <$> L)) !! i = Some (length (concat (take i L))) /\
  (0 :: run_offsets 0 (length <$> L)) !! S i = Some (length (concat (take i L)) + length l).
Proof.
  intros H. pose proof (lookup_lt_Some _ _ _ H). rewrite !run_offsets_lookup by (rewrite fmap_length; lia).
  rewrite length_concat_take. split; [done|]. f_equal. simpl. apply sum_take_S. by rewrite list_lookup_fmap, H.
Qed.
Lemma row_ok {X} (L : list (list X)) i l : L !! i = Some l -> row (0 :: run_offsets 0 (length <$> L)) (concat L) i = Some l.
Proof.
  intros H. destruct (row_bounds L i l H) as [E1 E2]. unfold row. rewrite E1, E2. cbn [mbind option_bind].
  rewrite (concat_split L i l H) at 1. rewrite !app_length.
  set (n := length (concat (take i L))).
  replace (n <=? n + length l) with true by (symmetry; apply Nat.leb_le; lia).
  replace (n + length l <=? n + (length l + length (concat (drop (S i) L)))) with true by (symmetry; apply Nat.leb_le; lia).
  cbn [andb]. f_equal. rewrite (concat_split L i l H). replace (n + length l - n) with (length l) by lia.
  unfold n. rewrite drop_app. by rewrite take_app.
Qed.

(** A kernel that writes each cell of a view once, with the right value. *)
Lemma par_writes_all {X} (W : list X) order buf : order ≡ₚ seq 0 (length W) -> length buf = length W ->
  par_writes Some (fun c => W !! c) order buf = Some W.
Proof.
  intros HO HL. destruct (par_writes_correct Some (fun c => W !! c) order buf) as (out&E&L&HW&_).
  - rewrite HO. apply NoDup_seq.
  - intros i Hi. rewrite HO in Hi. apply elem_of_seq in Hi as [_ Hi]. destruct (lookup_lt_is_Some_2 W i) as [v Hv]; [lia|]. exists i, v. split; [done|]. split; [done|lia].
  - intros i j d _ _ [= ->] [= ->]. done.
  - rewrite E. f_equal. apply list_eq. intros i. destruct (decide (i < length W)) as [Hi|Hi].
    + rewrite (HW i i); [done| |done]. rewrite HO. apply elem_of_seq. lia.
    + rewrite !lookup_ge_None_2; [done|lia..].
Qed.

(** ** Truncation of the rank lists *)
Lemma needed_ok k sizes rs : (forall r, r ∈ rs -> r < length sizes) -> forall leaves,
  exists m, needed k sizes leaves rs = Some m /\ m <= length rs /\
    ((forall r, r ∈ rs -> sizes !! r <> Some 0) ->
     m = length rs \/ k <= leaves + sum_list (map (fun r => default 0 (sizes !! r)) (take m rs))).
Proof.
  induction rs as [|r rs IH]; intros Hb leaves; [exists 0; simpl; auto|].
  simpl. destruct (lookup_lt_is_Some_2 sizes r) as [n Hn]; [apply Hb; left|]. rewrite Hn. simplo.
  destruct (Nat.eqb_spec n 0) as [->|Hn0]; simpl.
  - exists 0. split; [done|]. split; [lia|]. intros H. exfalso. by apply (H r ltac:(left)).
  - destruct (Nat.leb_spec k leaves).
    + exists 0. simpl. split; [done|]. split; [lia|]. intros _. right. lia.
    + destruct (IH ltac:(intros; apply Hb; by right) (leaves + n)) as (m&->&Hm&H'). simplo. exists (S m). split; [done|]. split; [simpl; lia|].
      intros HN. destruct H' as [->|H']; [intros; apply HN; by right|left; done|right]. simpl. rewrite Hn. simpl. lia.
Qed.

Lemma copy_rows_ok (TS : list (list nat)) counts order :
  Forall2 (fun ts m => m <= length ts) TS counts ->
  order ≡ₚ cells (0 :: run_offsets 0 counts) ->
  copy_rows order (0 :: run_offsets 0 (length <$> TS)) (0 :: run_offsets 0 counts) (concat TS) (replicate (sum_list counts) 0) =
    Some (concat (zip_with take counts TS)).
Proof.
  intros HF HO.
  set (W := concat (zip_with take counts TS)).
  assert (length <$> zip_with take counts TS = counts) as HLen.
  { clear -HF. induction HF as [|ts m TS counts H HF IH]; csimpl; [done|]. rewrite IH, take_length. f_equal. lia. }
  assert (length W = sum_list counts) as HW. { unfold W. by rewrite length_concat, HLen. }
  assert (forall buf, copy_rows order (0 :: run_offsets 0 (length <$> TS)) (0 :: run_offsets 0 counts) (concat TS) buf =
    par_writes Some (fun c => W !! c) (map snd order) buf) as ->.
  { assert (forall q c, (q, c) ∈ order -> exists ts m, TS !! q = Some ts /\ counts !! q = Some m /\ sum_list (take q counts) <= c < sum_list (take q counts) + m) as H.
    { intros q c Hq. rewrite HO in Hq. apply cells_elem in Hq as (m&Hm&Hc). destruct (Forall2_lookup_r _ _ _ _ _ HF Hm) as (ts&Hts&_). eauto. }
    clear HO. induction order as [|[q c] order IH]; intros buf; [done|].
    destruct (H q c ltac:(left)) as (ts&m&Hts&Hm&Hc). cbn [copy_rows map par_writes snd].
    destruct (row_bounds TS q ts Hts) as [-> _]. rewrite run_offsets_lookup by (apply Nat.lt_le_incl; by eapply lookup_lt_Some). simplo.
    pose proof (Forall2_lookup_lr _ _ _ _ _ _ HF Hts Hm) as Hle. simpl in Hle.
    destruct (lookup_lt_is_Some_2 ts (c - sum_list (take q counts))) as [v Hv]; [lia|].
    rewrite Nat.add_0_l, length_concat_take, (concat_at TS q ts _ v Hts Hv). simplo.
    assert (W !! c = Some v) as ->.
    { pose proof (concat_at (zip_with take counts TS) q (take m ts) (c - sum_list (take q counts)) v) as Hat.
      rewrite HLen in Hat. replace (sum_list (take q counts) + (c - sum_list (take q counts))) with c in Hat by lia. apply Hat.
      - apply lookup_zip_with_Some. eauto.
      - rewrite lookup_take by lia. done. }
    simplo. destruct (wr buf c v); [|done]. simplo. apply IH. intros q' c' Hq'. apply H. by right. }
  apply par_writes_all.
  - rewrite HW, <- cells_snd. by apply Permutation_map.
  - by rewrite replicate_length.
Qed.

Lemma Truncate_ok {Q} (getK : Q -> nat) sizes (preds : list (list Q)) (TS : list (list (list nat))) (post : list (list nat) -> list (list nat) -> Prop) :
  Forall2 (fun p ts => length p = length ts) preds TS ->
  (forall ts rs r, ts ∈ TS -> rs ∈ ts -> r ∈ rs -> r < length sizes) ->
  (forall TS', Forall2 (fun '(p, ts) ts' => Forall2 (fun '(q, rs) rs' => exists m, needed (getK q) sizes 0 rs = Some m /\ rs' = take m rs) (zip p ts) ts') (zip preds TS) TS' ->
     post (map (@concat nat) TS') (offs_of TS')) ->
  Truncate getK sizes preds (map (@concat nat) TS) (offs_of TS) post.
Proof.
  intros HF Hb HP. pose proof (Forall2_length _ _ _ HF) as HL. unfold Truncate.
  destruct (list_choice (zip preds TS) (fun s '(p, ts) counts => length counts = length p /\
    (forall i q rs m, p !! i = Some q -> ts !! i = Some rs -> counts !! i = Some m -> needed (getK q) sizes 0 rs = Some m /\ m <= length rs))) as (countss&HLc&HC).
  { intros s [p ts] Hs. apply lookup_zip_with_Some in Hs as (?&?&[= <- <-]&Hp&Hts).
    pose proof (Forall2_lookup_lr _ _ _ _ _ _ HF Hp Hts) as Hlp. simpl in Hlp.
    destruct (list_choice (zip p ts) (fun i '(q, rs) m => needed (getK q) sizes 0 rs = Some m /\ m <= length rs)) as (counts&Hl&H).
    { intros i [q rs] Hi. apply lookup_zip_with_Some in Hi as (?&?&[= <- <-]&Hq&Hrs).
      destruct (needed_ok (getK q) sizes rs) with (leaves := 0) as (m&Hm&Hle&_); [|by exists m].
      intros r Hr. eapply Hb; [by eapply elem_of_list_lookup_2|by eapply elem_of_list_lookup_2|done]. }
    exists counts. rewrite zip_with_length in Hl. split; [lia|]. intros i q rs m Hq Hrs Hm. apply (H i (q, rs) m); [|done]. apply lookup_zip_with_Some. eauto. }
  rewrite zip_with_length in HLc.
  assert (forall s p ts counts, preds !! s = Some p -> TS !! s = Some ts -> countss !! s = Some counts -> length counts = length p /\ length p = length ts /\
    forall i q rs m, p !! i = Some q -> ts !! i = Some rs -> counts !! i = Some m -> needed (getK q) sizes 0 rs = Some m /\ m <= length rs) as HC'.
  { intros s p ts counts Hp Hts Hc. destruct (HC s (p, ts) counts) as [H1 H2]; [apply lookup_zip_with_Some; eauto|done|].
    split; [done|]. split; [|done]. by apply (Forall2_lookup_lr _ _ _ _ _ _ HF Hp Hts). }
  exists countss. split.
  { apply mapM_Some, Forall2_same_length_lookup. split; [rewrite seq_length; lia|]. intros s s' counts Hs Hc. apply lookup_seq in Hs as [-> Hs]. simpl.
    destruct (lookup_lt_is_Some_2 preds s) as [p Hp]; [done|]. destruct (lookup_lt_is_Some_2 TS s) as [ts Hts]; [lia|].
    destruct (HC' s p ts counts Hp Hts Hc) as (L1&L2&H).
    rewrite Hp. unfold offs_of. change (map ?f TS) with (f <$> TS). rewrite !list_lookup_fmap, Hts. cbn [mbind option_bind fmap option_fmap option_map].
    apply mapM_Some, Forall2_same_length_lookup. split; [rewrite seq_length; lia|]. intros i i' m Hi Hm. apply lookup_seq in Hi as [-> Hi]. simpl.
    destruct (lookup_lt_is_Some_2 p i) as [q Hq]; [done|]. destruct (lookup_lt_is_Some_2 ts i) as [rs Hrs]; [lia|].
    rewrite Hq. simplo. rewrite (row_ok ts i rs Hrs). simplo. by apply (H i q rs m). }
  assert (map (fun counts => excl_scan 0 (counts ++ [0])) countss = map (fun counts => 0 :: run_offsets 0 counts) countss) as ->.
  { apply map_ext. intros counts. apply excl_scan_run. }
  intros order HO.
  set (TS' := zip_with (fun counts ts => zip_with take counts ts) countss TS).
  assert (map (fun counts => 0 :: run_offsets 0 counts) countss = offs_of TS') as EO.
  { apply list_eq. intros s. unfold offs_of, TS'. change (map ?f ?l) with (f <$> l). rewrite !list_lookup_fmap, lookup_zip_with.
    destruct (countss !! s) as [counts|] eqn:Ec; [|done]. pose proof (lookup_lt_Some _ _ _ Ec).
    destruct (lookup_lt_is_Some_2 preds s) as [p Hp]; [lia|]. destruct (lookup_lt_is_Some_2 TS s) as [ts Hts]; [lia|]. rewrite Hts. simpl. do 3 f_equal.
    destruct (HC' s p ts counts Hp Hts Ec) as (L1&L2&H').
    apply list_eq. intros i. rewrite list_lookup_fmap, lookup_zip_with. destruct (counts !! i) as [m|] eqn:Em; [|done]. pose proof (lookup_lt_Some _ _ _ Em).
    destruct (lookup_lt_is_Some_2 p i) as [q Hq]; [lia|]. destruct (lookup_lt_is_Some_2 ts i) as [rs Hrs]; [lia|]. rewrite Hrs. simpl.
    destruct (H' i q rs m Hq Hrs Em). rewrite take_length. f_equal. lia. }
  exists (map (@concat nat) TS'). split.
  { apply mapM_Some, Forall2_same_length_lookup. unfold TS'. split; [rewrite seq_length, map_length, zip_with_length; lia|].
    intros s s' nr Hs Hnr. apply lookup_seq in Hs as [-> Hs]. simpl.
    change (map ?f ?l) with (f <$> l) in Hnr. rewrite list_lookup_fmap, lookup_zip_with in Hnr.
    destruct (countss !! s) as [counts|] eqn:Ec; [|done]. destruct (TS !! s) as [ts|] eqn:Hts; [|done]. simpl in Hnr. injection Hnr as <-.
    destruct (lookup_lt_is_Some_2 preds s) as [p Hp]; [done|]. destruct (HC' s p ts counts Hp Hts Ec) as (L1&L2&H').
    unfold offs_of. change (map ?f TS) with (f <$> TS). rewrite !list_lookup_fmap, Hts. cbn [mbind option_bind fmap option_fmap option_map].
    rewrite Ec. cbn [mbind option_bind fmap option_fmap option_map].
    rewrite run_offsets_last. simplo. apply copy_rows_ok.
    - apply Forall2_same_length_lookup. split; [lia|]. intros i rs m Hrs Hm. destruct (lookup_lt_is_Some_2 p i) as [q Hq]; [apply lookup_lt_Some in Hrs; lia|].
      by apply (H' i q rs m).
    - apply HO. change (map ?f ?l) with (f <$> l). by rewrite list_lookup_fmap, Ec. }
  rewrite EO. apply HP. apply Forall2_same_length_lookup. unfold TS'. split; [rewrite !zip_with_length; lia|].
  intros s [p ts] ts' Hs Hts'. apply lookup_zip_with_Some in Hs as (?&?&[= <- <-]&Hp&Hts).
  apply lookup_zip_with_Some in Hts' as (counts&ts0&->&Hc&Hts0). assert (ts0 = ts) as -> by congruence.
  destruct (HC' s p ts counts Hp Hts Hc) as (L1&L2&H').
  apply Forall2_same_length_lookup. split; [rewrite !zip_with_length; lia|]. intros i [q rs] rs' Hi Hrs'.
  apply lookup_zip_with_Some in Hi as (?&?&[= <- <-]&Hq&Hrs). apply lookup_zip_with_Some in Hrs' as (m&rs0&->&Hm&Hrs0). assert (rs0 = rs) as -> by congruence.
  exists m. split; [|done]. by apply (H' i q rs m).
Qed.

(** ** Counting values within a distance *)
Section Counts.
Context {D : Type} (ltb : D -> D -> bool) (SW : StrictWeak ltb).

Definition within {V} (d : V -> D) (rho : D) (v : V) : bool := negb (ltb rho (d v)).

Lemma cntb_perm {A} (f : A -> bool) l k : l ≡ₚ k -> cntb f l = cntb f k.
Proof. intros H. by rewrite (list_filter_perm f l k H). Qed.
Lemma cntb_le {A} (f : A -> bool) l : cntb f l <= length l.
Proof. induction l as [|x l IH]; simpl; [lia|]. destruct (f x); simpl; lia. Qed.
Lemma cntb_all {A} (f : A -> bool) l : cntb f l = length l -> forall x, x ∈ l -> f x = true.
Proof.
  induction l as [|a l IH]; intros H x Hx; [by apply elem_of_nil in Hx|]. simpl in H. pose proof (cntb_le f l).
  destruct (f a) eqn:E; simpl in H; [|lia]. apply elem_of_cons in Hx as [->|Hx]; [done|]. apply IH; [lia|done].
Qed.
Lemma cntb_app {A} (f : A -> bool) l k : cntb f (l ++ k) = cntb f l + cntb f k.
Proof. by rewrite list_filter_app, app_length. Qed.
Lemma cntb_pos {A} (f : A -> bool) l : 0 < cntb f l -> exists x, x ∈ l /\ f x = true.
Proof. intros H. destruct (List.filter f l) as [|x k] eqn:E; [simpl in H; lia|]. exists x. apply list_filter_elem. rewrite E. left. Qed.
Lemma cntb_ge1 {A} (f : A -> bool) l x : x ∈ l -> f x = true -> 1 <= cntb f l.
Proof. intros Hx Hf. assert (x ∈ List.filter f l) as H by (by apply list_filter_elem). destruct (List.filter f l); [by apply elem_of_nil in H|simpl; lia]. Qed.
Lemma cntb_mono {A} (f g : A -> bool) l : (forall x, x ∈ l -> f x = true -> g x = true) -> cntb f l <= cntb g l.
Proof.
  induction l as [|a l IH]; intros H; [done|]. simpl. pose proof (H a ltac:(left)). assert (cntb f l <= cntb g l) by (apply IH; intros; apply H; [by right|done]).
  destruct (f a); [rewrite H0 by done; simpl; lia|destruct (g a); simpl; lia].
Qed.
Lemma cntb_map {A B} (g : A -> B) (f : B -> bool) l : cntb f (map g l) = cntb (fun x => f (g x)) l.
Proof. by rewrite list_filter_map, map_length. Qed.

Lemma ltb_le_trans a b c : ltb b a = false -> ltb c b = false -> ltb c a = false.
Proof. intros H1 H2. by apply (sw_incomp _ SW c b a). Qed.

Lemma Closest_count {V} (d : V -> D) k vals out : Closest ltb d k vals out ->
  forall rho, cntb (within d rho) out = min k (cntb (within d rho) vals).
Proof.
  intros (HL&rest&HP&HM) rho. pose proof (cntb_perm (within d rho) _ _ HP) as HC. rewrite cntb_app in HC.
  pose proof (Permutation_length HP) as HPL. rewrite app_length in HPL. pose proof (cntb_le (within d rho) out).
  destruct (decide (cntb (within d rho) rest = 0)) as [E|E]; [lia|].
  destruct (cntb_pos (within d rho) rest) as (b&Hb&Hrho); [lia|].
  assert (cntb (within d rho) out = length out) as Eo.
  { f_equal. apply list_filter_all. intros a Ha. unfold within in *. apply negb_true_iff in Hrho. apply negb_true_iff.
    apply (ltb_le_trans (d a) (d b) rho); [by apply HM|done]. }
  assert (length rest <> 0) by (destruct rest; [by apply elem_of_nil in Hb|done]).
  lia.
Qed.

Lemma count_Closest {V} (d : V -> D) k vals out rest : vals ≡ₚ out ++ rest ->
  (forall rho, cntb (within d rho) out = min k (cntb (within d rho) vals)) -> length out = min k (length vals) ->
  Closest ltb d k vals out.
Proof.
  intros HP HC HL. split; [done|]. exists rest. split; [done|]. intros a b Ha Hb.
  destruct (ltb (d b) (d a)) eqn:E; [exfalso|done].
  pose proof (HC (d b)) as H. rewrite (cntb_perm _ _ _ HP), cntb_app in H.
  assert (1 <= cntb (within d (d b)) rest). { apply (cntb_ge1 _ _ b Hb). unfold within. by rewrite (sw_irrefl _ SW). }
  pose proof (cntb_le (within d (d b)) out).
  assert (cntb (within d (d b)) out = length out) as Eo by lia.
  pose proof (cntb_all _ _ Eo a Ha) as Hw. unfold within in Hw. rewrite E in Hw. done.
Qed.

(** ** filterResults *)
Section Filter.
Context {C : Type}.
Notation closer := (@closer C D ltb).
Lemma closer_SW : StrictWeak closer.
Proof.
  split; unfold DistTreeModel.closer.
  - intros x. apply (sw_irrefl _ SW).
  - intros x y z H1 H2. by apply (sw_trans _ SW _ y.2).
  - intros x y z H1 H2. by apply (sw_incomp _ SW _ y.2).
Qed.
Lemma push_all_ok items : forall cap queue, HeapOrd closer queue (length queue) -> length queue + length items <= cap ->
  exists q, push_all ltb cap items queue = Some q /\ q ≡ₚ items ++ queue /\ HeapOrd closer q (length q).
Proof.
  induction items as [|x items IH]; intros cap queue HO Hc; [by exists queue|]. simpl in Hc |- *.
  destruct (pq_push_correct closer closer_SW cap queue x) as (q1&->&HP&HO1); [lia|done|]. simplo.
  destruct (IH cap q1) as (q&E&HP'&HO'); [done|rewrite (Permutation_length HP); simpl; lia|].
  exists q. split; [done|]. split; [|done]. rewrite HP', HP. by rewrite Permutation_middle.
Qed.
Lemma pop_upto_ok m : forall queue, HeapOrd closer queue (length queue) ->
  exists popped rest, pop_upto ltb m queue = Some popped /\ queue ≡ₚ popped ++ rest /\ length popped = min m (length queue) /\
    Ascending (fun a b => ltb a.2 b.2) popped /\ (forall a b, a ∈ popped -> b ∈ rest -> ltb b.2 a.2 = false).
Proof.
  induction m as [|m IH]; intros queue HO.
  { exists [], queue. simpl. split; [by destruct queue|]. split; [done|]. split; [done|]. split; [intros i j x y _ Hx; done|]. intros a b Ha. by apply elem_of_nil in Ha. }
  destruct queue as [|t q0] eqn:Eq.
  { exists [], []. simpl. split; [done|]. split; [done|]. split; [done|]. split; [intros i j x y _ Hx; done|]. intros a b Ha. by apply elem_of_nil in Ha. }
  destruct (pq_pop_correct closer closer_SW (t :: q0) t HO eq_refl) as (q'&E&HP&HO'&HM).
  cbn [pop_upto]. change (pq_top (t :: q0)) with (Some t). simplo. rewrite E. simplo.
  destruct (IH q' HO') as (popped&rest&->&HP'&HL&HA&HR). simplo. exists (t :: popped), rest.
  assert (forall y, y ∈ popped ++ rest -> ltb y.2 t.2 = false) as Ht.
  { intros y Hy. apply HM. rewrite <- HP. right. by rewrite HP'. }
  split; [done|]. split; [rewrite <- HP, HP'; done|]. split.
  { pose proof (Permutation_length HP) as Hl. simpl in Hl |- *. lia. }
  split.
  - intros i j x y Hij Hx Hy. destruct j as [|j]; [lia|]. destruct i as [|i]; simpl in Hx, Hy.
    + injection Hx as <-. apply Ht. apply elem_of_app. left. by eapply elem_of_list_lookup_2.
    + apply (HA i j); [lia|done|done].
  - intros a b Ha Hb. apply elem_of_cons in Ha as [->|Ha]; [|by apply HR]. apply Ht. apply elem_of_app. by right.
Qed.
Lemma filter_query_ok k (items : list (C * D)) : exists popped, filter_query ltb k items = Some popped /\ Closest ltb snd k items popped /\
  Ascending (fun a b => ltb a.2 b.2) popped.
Proof.
  unfold filter_query. destruct items as [|x items].
  { exists []. split; [done|]. split; [|intros i j a b _ Ha; done]. split; [simpl; lia|]. exists []. split; [done|]. intros a b Ha. by apply elem_of_nil in Ha. }
  destruct (push_all_ok (x :: items) (length (x :: items)) []) as (q&->&HP&HO); [intros i j a b Hj; simpl in Hj; lia|simpl; lia|]. simplo.
  rewrite app_nil_r in HP. destruct (pop_upto_ok k q HO) as (popped&rest&E&HP'&HL&HA&HM). exists popped. split; [done|]. split; [|done]. split.
  - by rewrite HL, (Permutation_length HP).
  - exists rest. split; [by rewrite <- HP|done].
Qed.

Lemma write_at_ok (W : list (option C)) l : forall n buf, (forall c x, l !! c = Some x -> W !! (n + c) = Some (Some x)) ->
  write_at n l buf = par_writes Some (fun c => W !! c) (seq n (length l)) buf.
Proof.
  induction l as [|x l IH]; intros n buf H; [done|]. cbn [write_at length seq par_writes].
  pose proof (H 0 x eq_refl) as H0. rewrite Nat.add_0_r in H0. rewrite H0. simplo. destruct (wr buf n (Some x)); [|done]. simplo.
  apply IH. intros c y Hc. replace (S n + c) with (n + S c) by lia. by apply H.
Qed.
Lemma par_writes_app {X} (dst : nat -> option nat) (val : nat -> option X) o1 : forall o2 buf,
  par_writes dst val (o1 ++ o2) buf = par_writes dst val o1 buf ≫= par_writes dst val o2.
Proof.
  induction o1 as [|i o1 IH]; intros o2 buf; [done|]. cbn [app par_writes].
  destruct (dst i); [|done]. simplo. destruct (val i); [|done]. simplo. destruct (wr buf n x); [|done]. simplo. apply IH.
Qed.

Lemma filterResults_ok {Q} (getK : Q -> nat) (p : list Q) (rows : list (list (C * D))) (post : list (option C) -> list nat -> Prop) :
  length p = length rows ->
  (forall poppeds out offset, Forall2 (fun '(q, row) popped => Closest ltb snd (getK q) row popped /\ Ascending (fun a b => ltb a.2 b.2) popped) (zip p rows) poppeds ->
     CrsAnswerOrdered (map (map fst) poppeds) out offset -> post out offset) ->
  filterResults ltb getK p (map fst (concat rows)) (map snd (concat rows)) (0 :: run_offsets 0 (length <$> rows)) post.
Proof.
  intros HL HP.
  destruct (list_choice (zip p rows) (fun i '(q, row) popped => filter_query ltb (getK q) row = Some popped /\ Closest ltb snd (getK q) row popped /\
    Ascending (fun a b => ltb a.2 b.2) popped)) as (poppeds&HLp&HQ).
  { intros i [q row] _. apply filter_query_ok. }
  rewrite zip_with_length in HLp.
  assert (forall i q row popped, p !! i = Some q -> rows !! i = Some row -> poppeds !! i = Some popped ->
    filter_query ltb (getK q) row = Some popped /\ Closest ltb snd (getK q) row popped /\ Ascending (fun a b => ltb a.2 b.2) popped) as HQ'.
  { intros i q row popped Hq Hr Hp. apply (HQ i (q, row) popped); [|done]. apply lookup_zip_with_Some. eauto. }
  set (counts := length <$> poppeds).
  exists counts. split.
  { apply mapM_Some, Forall2_same_length_lookup. unfold counts. split; [rewrite seq_length, fmap_length; lia|].
    intros i i' c Hi Hc. apply lookup_seq in Hi as [-> Hi]. rewrite Nat.add_0_l. apply list_lookup_fmap_Some in Hc as (popped&Hpop&->).
    destruct (lookup_lt_is_Some_2 p i) as [q Hq]; [done|]. destruct (lookup_lt_is_Some_2 rows i) as [row Hrow]; [lia|].
    rewrite Hq. simplo. destruct (row_bounds rows i row Hrow) as [-> ->]. simplo.
    destruct (HQ' i q row popped Hq Hrow Hpop) as (_&(Hl&_)&_). f_equal. lia. }
  cbv zeta. rewrite excl_scan_run. intros order HO.
  set (W := map Some (concat (map (map fst) poppeds))).
  exists (sum_list counts), W. split; [apply run_offsets_last|].
  assert (counts = length <$> map (map fst) poppeds) as Ecounts.
  { unfold counts. clear. induction poppeds as [|l k IH]; csimpl; [done|]. rewrite IH. f_equal. by rewrite map_length. }
  split.
  - assert (forall buf, filter_loop ltb getK p (map fst (concat rows)) (map snd (concat rows)) (0 :: run_offsets 0 (length <$> rows)) (0 :: run_offsets 0 counts) order buf =
      par_writes Some (fun c => W !! c) (concat (map (fun i => seq (sum_list (take i counts)) (default 0 (counts !! i))) order)) buf) as ->.
    { assert (forall i, i ∈ order -> i < length p) as Hlt. { intros i Hi. rewrite HO in Hi. apply elem_of_seq in Hi. lia. }
      clear HO. induction order as [|i order IH]; intros buf; [done|]. cbn [filter_loop map concat]. rewrite par_writes_app.
      assert (i < length p) as Hi by (apply Hlt; left).
      destruct (lookup_lt_is_Some_2 p i) as [q Hq]; [done|]. destruct (lookup_lt_is_Some_2 rows i) as [rw Hrow]; [lia|].
      destruct (lookup_lt_is_Some_2 poppeds i) as [popped Hpop]; [lia|].
      assert (forall X (g : C * D -> X), row (0 :: run_offsets 0 (length <$> rows)) (map g (concat rows)) i = Some (map g rw)) as Hrowg.
      { intros X g. rewrite concat_map. replace (length <$> rows) with (length <$> map (map g) rows).
        - apply row_ok. change (map ?f ?l) with (f <$> l) at 1. by rewrite list_lookup_fmap, Hrow.
        - clear. induction rows as [|l k IH]; csimpl; [done|]. rewrite IH. f_equal. by rewrite map_length. }
      rewrite Hq. simplo. rewrite !Hrowg. simplo.
      replace (zip (map fst rw) (map snd rw)) with rw by (clear; induction rw as [|[a b] l IH]; simpl; congruence).
      destruct (HQ' i q rw popped Hq Hrow Hpop) as (->&_&_). simplo.
      rewrite run_offsets_lookup by (unfold counts; rewrite fmap_length; lia). simplo. rewrite Nat.add_0_l.
      rewrite (write_at_ok W).
      - assert (counts !! i = Some (length popped)) as -> by (unfold counts; by rewrite list_lookup_fmap, Hpop). cbn [default id]. rewrite map_length.
        destruct (par_writes Some (fun c => W !! c) (seq (sum_list (take i counts)) (length popped)) buf) eqn:Ew; [|done]. simplo.
        apply IH. intros j Hj. apply Hlt. by right.
      - intros c x Hx. unfold W. change (map Some ?l) with (Some <$> l). rewrite list_lookup_fmap, Ecounts.
        rewrite (concat_at (map (map fst) poppeds) i (map fst popped) c x); [done| |done].
        change (map ?f ?l) with (f <$> l) at 1. by rewrite list_lookup_fmap, Hpop. }
    assert (length W = sum_list counts) as HW. { unfold W. by rewrite map_length, length_concat, <- Ecounts. }
    apply par_writes_all; [|by rewrite replicate_length].
    rewrite HW, <- cells_snd, cells_eq.
    transitivity (concat (map (fun i => seq (sum_list (take i counts)) (default 0 (counts !! i))) (seq 0 (length p)))).
    { by apply concat_perm, Permutation_map. }
    match goal with |- ?a ≡ₚ ?b => enough (a = b) as -> by done end.
    rewrite concat_map. f_equal. apply list_eq. intros i. change (map ?f ?l) with (f <$> l). rewrite !list_lookup_fmap, list_lookup_imap.
    destruct (decide (i < length p)) as [Hi|Hi].
    + rewrite lookup_seq_lt by done. destruct (lookup_lt_is_Some_2 counts i) as [c Hc]; [unfold counts; rewrite fmap_length; lia|]. rewrite Hc. simpl. rewrite Hc. simpl.
      f_equal. clear. induction (seq _ c); csimpl; congruence.
    + rewrite !lookup_ge_None_2; [done| |rewrite seq_length; lia]. unfold counts. rewrite fmap_length. lia.
  - apply (HP poppeds).
    + apply Forall2_same_length_lookup. split; [rewrite zip_with_length; lia|]. intros i [q row] popped Hi Hpop.
      apply lookup_zip_with_Some in Hi as (?&?&[= <- <-]&Hq&Hr). destruct (HQ' i q row popped Hq Hr Hpop) as (_&H). done.
    + split; [|done]. split.
      * simpl. rewrite run_offsets_length. unfold counts. by rewrite fmap_length, map_length.
      * intros i Hi. rewrite map_length in Hi. rewrite run_offsets_lookup by (unfold counts; rewrite fmap_length; lia).
        by rewrite length_concat_take, <- Ecounts.
Qed.
End Filter.
End Counts.

(** ** The radius after phase I *)
Section Radius.
Context {D : Type} (ltb : D -> D -> bool) (SW : StrictWeak ltb).

Lemma perm_mid {X} (a m m' b : list X) : a ++ m' ++ b ≡ₚ a ++ m ++ b -> m' ≡ₚ m.
Proof. intros H. apply Permutation_app_inv_l in H. by apply Permutation_app_inv_r in H. Qed.

Lemma frame_row {X} (L : list (list X)) i l ds : L !! i = Some l ->
  ds ≡ₚ concat L -> (forall c, c < length (concat (take i L)) \/ length (concat (take i L)) + length l <= c -> ds !! c = concat L !! c) ->
  exists l', l' ≡ₚ l /\ ds = concat (<[i := l']> L) /\ (forall c, c < length l -> l' !! c = ds !! (length (concat (take i L)) + c)).
Proof.
  intros Hi HP HF. pose proof (concat_split L i l Hi) as EC.
  set (n := length (concat (take i L))) in *. exists (take (length l) (drop n ds)).
  assert (length ds = length (concat L)) as HL by (by apply Permutation_length).
  rewrite EC, !app_length in HL. fold n in HL.
  assert (ds = concat (take i L) ++ take (length l) (drop n ds) ++ concat (drop (S i) L)) as ED.
  { rewrite <- (take_drop n ds) at 1. f_equal.
    - apply list_eq. intros c. destruct (decide (c < n)) as [Hc|Hc].
      + rewrite lookup_take by done. rewrite HF by lia. rewrite EC. by rewrite lookup_app_l by done.
      + rewrite !lookup_ge_None_2; [done|unfold n in *; lia|rewrite take_length; lia].
    - rewrite <- (take_drop (length l) (drop n ds)) at 1. f_equal. rewrite drop_drop. apply list_eq. intros c. rewrite lookup_drop.
      rewrite HF by lia. rewrite EC. rewrite lookup_app_r by (fold n; lia). rewrite lookup_app_r by (fold n; lia). f_equal. fold n. lia. }
  assert (take (length l) (drop n ds) ≡ₚ l) as HPl.
  { eapply (perm_mid (concat (take i L)) l _ (concat (drop (S i) L))). rewrite <- ED, <- EC. done. }
  split; [done|]. split.
  - rewrite ED at 1. symmetry. pose proof (lookup_lt_Some _ _ _ Hi) as Hlt.
    rewrite (concat_split (<[i:=take (length l) (drop n ds)]> L) i (take (length l) (drop n ds))) by (by apply list_lookup_insert).
    rewrite take_insert by lia. rewrite drop_insert_gt by lia. done.
  - intros c Hc. rewrite lookup_take by done. by rewrite lookup_drop.
Qed.

Definition FarOK {Q} (getK : Q -> nat) (q : Q) (row : list D) (g f : D) : Prop :=
  (row = [] -> f = g) /\ (row <> [] -> min (getK q) (length row) <= cntb (within ltb id f) row).

Lemma farthest_step_ok {Q} (getK : Q -> nat) p L far i q row g :
  p !! i = Some q -> L !! i = Some row -> far !! i = Some g -> (row <> [] -> 1 <= getK q) ->
  exists row' f, farthest_step ltb getK p (0 :: run_offsets 0 (length <$> L)) i (concat L, far) =
    Some (concat (<[i := row']> L), <[i := f]> far) /\ row' ≡ₚ row /\ FarOK getK q row g f.
Proof.
  intros Hq Hrow Hg HK. unfold farthest_step. destruct (row_bounds L i row Hrow) as [-> ->]. simplo.
  set (n := length (concat (take i L))).
  replace (n + length row - n) with (length row) by lia.
  destruct (Nat.eqb_spec (length row) 0) as [E|E].
  { exists row, g. rewrite !list_insert_id by done. split; [done|]. split; [done|]. split; [done|]. intros Hn. destruct row; [done|simpl in E; lia]. }
  rewrite Hq. simplo. assert (1 <= getK q) as HK1 by (apply HK; by destruct row).
  destruct (Nat.eqb_spec (getK q) 0); [lia|].
  set (k := min (getK q) (length row) - 1).
  pose proof (concat_split L i row Hrow) as EC.
  assert (n + length row <= length (concat L)) as Hlen by (rewrite EC, !app_length; fold n; lia).
  destruct (C19_nth_element ltb SW (concat L) n (n + k) (n + length row)) as (ds&v&->&HP&HF&Hv&Hlo&Hhi); [lia|lia|].
  simplo. rewrite Hv. simplo. rewrite wr_Some by (by eapply lookup_lt_Some). simplo.
  destruct (frame_row L i row ds Hrow HP HF) as (row'&HPr&->&Hc). fold n in Hc.
  exists row', v. split; [done|]. split; [done|]. split; [intros ->; done|]. intros _.
  rewrite <- (cntb_perm _ _ _ HPr). pose proof (Permutation_length HPr) as HLr.
  assert (forall c x, c <= k -> row' !! c = Some x -> within ltb id v x = true) as Hw.
  { intros c x Hck Hx. pose proof (lookup_lt_Some _ _ _ Hx). unfold within, id. apply negb_true_iff.
    destruct (decide (c = k)) as [->|].
    - rewrite Hc in Hx by lia. rewrite Hv in Hx. injection Hx as <-. apply (sw_irrefl _ SW).
    - apply (Hlo (n + c)); [lia|]. rewrite <- Hc by lia. done. }
  rewrite <- (take_drop (S k) row'), cntb_app.
  enough (cntb (within ltb id v) (take (S k) row') = min (getK q) (length row)) by lia.
  transitivity (length (take (S k) row')); [|rewrite take_length; lia]. f_equal. apply list_filter_all. intros x Hx.
  apply elem_of_list_lookup in Hx as [c Hx]. pose proof (lookup_lt_Some _ _ _ Hx) as Hcl. rewrite take_length in Hcl.
  rewrite lookup_take in Hx by lia. apply (Hw c x); [lia|done].
Qed.

Lemma run_lengths_insert {X} (L : list (list X)) i l l' : L !! i = Some l -> length l' = length l -> length <$> <[i := l']> L = length <$> L.
Proof. intros H HL. rewrite list_fmap_insert. apply list_insert_id. by rewrite list_lookup_fmap, H, HL. Qed.

Lemma Farthest_ok {Q} (getK : Q -> nat) (p : list Q) (L : list (list D)) garbage (post : list D -> Prop) :
  length p = length L -> length garbage = length p ->
  (forall i q row, p !! i = Some q -> L !! i = Some row -> row <> [] -> 1 <= getK q) ->
  (forall far, length far = length p -> (forall i q row g f, p !! i = Some q -> L !! i = Some row -> garbage !! i = Some g -> far !! i = Some f -> FarOK getK q row g f) -> post far) ->
  Farthest ltb getK p (map Some (concat L)) (0 :: run_offsets 0 (length <$> L)) garbage post.
Proof.
  intros HL HG HK HP. exists (concat L). split; [apply init_Some|]. intros order HO.
  assert (forall order (done : list nat) L' far, NoDup (order ++ done) -> (forall i, i ∈ order -> i < length p) ->
    length far = length p -> Forall2 (fun l' l => l' ≡ₚ l) L' L ->
    (forall i, i ∉ done -> far !! i = garbage !! i) ->
    (forall i q row g f, i ∈ done -> p !! i = Some q -> L !! i = Some row -> garbage !! i = Some g -> far !! i = Some f -> FarOK getK q row g f) ->
    exists ds far', farthest_loop ltb getK p (0 :: run_offsets 0 (length <$> L)) order (concat L', far) = Some (ds, far') /\ length far' = length p /\
      (forall i q row g f, i ∈ order ++ done -> p !! i = Some q -> L !! i = Some row -> garbage !! i = Some g -> far' !! i = Some f -> FarOK getK q row g f)) as Main.
  { clear order HO. induction order as [|i order IH]; intros dn L' far ND Hlt HLf HF Hg Hd.
    - exists (concat L'), far. split; [done|]. split; [done|]. exact Hd.
    - cbn [farthest_loop]. pose proof (Hlt i ltac:(left)) as Hi.
      destruct (lookup_lt_is_Some_2 p i) as [q Hq]; [done|]. destruct (lookup_lt_is_Some_2 L i) as [row Hrow]; [lia|].
      destruct (Forall2_lookup_r _ _ _ _ _ HF Hrow) as (row1&Hrow1&HP1).
      destruct (lookup_lt_is_Some_2 garbage i) as [g Hgi]; [lia|].
      apply NoDup_cons in ND as [Hni ND]. assert (far !! i = Some g) as Hfar. { rewrite Hg; [done|]. intros Hin. apply Hni. apply elem_of_app. by right. }
      assert (length <$> L' = length <$> L) as EL. { clear -HF. induction HF as [|a b l k H HF IH]; csimpl; [done|]. by rewrite IH, (Permutation_length H). }
      destruct (farthest_step_ok getK p L' far i q row1 g Hq Hrow1 Hfar) as (row'&f&E&HP'&HOK).
      { intros Hne. apply (HK i q row Hq Hrow). intros ->. apply Hne. by apply Permutation_nil_r in HP1. }
      rewrite EL in E. rewrite E. simplo.
      destruct (IH (i :: dn) (<[i := row']> L') (<[i := f]> far)) as (ds&far'&E'&HLf'&H').
      + rewrite <- Permutation_middle. by apply NoDup_cons.
      + intros j Hj. apply Hlt. by right.
      + by rewrite insert_length.
      + rewrite <- (list_insert_id L i row Hrow). apply Forall2_insert; [done|]. by rewrite HP'.
      + intros j Hj. apply not_elem_of_cons in Hj as [Hne Hj]. rewrite list_lookup_insert_ne by done. by apply Hg.
      + intros j q0 row0 g0 f0 Hj Hq0 Hrow0 Hg0 Hf0. apply elem_of_cons in Hj as [->|Hj].
        * rewrite list_lookup_insert in Hf0 by lia. assert (row0 = row) as -> by congruence. assert (q0 = q) as -> by congruence. assert (g0 = g) as -> by congruence. injection Hf0 as <-.
          destruct HOK as [H1 H2]. split.
          -- intros ->. apply H1. by apply Permutation_nil_r in HP1.
          -- intros Hne. rewrite <- (cntb_perm _ _ _ HP1), <- (Permutation_length HP1). apply H2. intros ->. apply Hne. by apply Permutation_nil_l in HP1.
        * assert (i <> j). { intros ->. apply Hni. apply elem_of_app. by right. }
          rewrite list_lookup_insert_ne in Hf0 by done. by eapply Hd.
      + exists ds, far'. split; [done|]. split; [done|]. intros j q0 row0 g0 f0 Hj. apply H'. revert Hj. rewrite !elem_of_app, !elem_of_cons. tauto. }
  destruct (Main order [] L garbage) as (ds&far&E&HLf&H).
  - rewrite app_nil_r, HO. apply NoDup_seq.
  - intros i Hi. rewrite HO in Hi. apply elem_of_seq in Hi. lia.
  - done.
  - clear. induction L; constructor; done.
  - done.
  - intros i q row g f Hi. by apply elem_of_nil in Hi.
  - exists ds, far. split; [done|]. apply HP; [done|]. intros i q row g f Hq. apply H; [|done]. rewrite app_nil_r, HO. apply elem_of_seq. apply lookup_lt_Some in Hq. lia.
Qed.
End Radius.
