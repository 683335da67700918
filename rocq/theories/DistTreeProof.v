(** Proofs about queries on a distributed tree. *)
From Coq Require Import Sorting.Sorted.
From Verif Require Import Base KernelAlgModel KernelAlgProof CrsModel CrsSpec CrsProof.
From Verif Require Import DistributorModel DistributorSpec DistributorProof PropertiesDistributor DistTreeModel.

(** ** Small list facts *)
Lemma init_Some {X} (l : list X) : init (map Some l) = Some l.
Proof. unfold init. induction l as [|x l IH]; [done|]. cbn [map mapM]. simpl. by rewrite IH. Qed.
Lemma init_all {X} (l : list (list X)) : mapM init (map (map Some) l) = Some l.
Proof. induction l as [|x l IH]; [done|]. cbn [map mapM]. rewrite init_Some. simpl. by rewrite IH. Qed.

Lemma items_for_self {A} (f : A -> nat) r xs : items_for r (map f xs) xs = List.filter (fun x => f x =? r) xs.
Proof. unfold items_for. induction xs as [|x xs IH]; [done|]. csimpl. destruct (f x =? r); csimpl; by rewrite IH. Qed.
Lemma delivered_self {A} (f : A -> nat) r (xss : list (list A)) :
  delivered r (map (map f) xss) xss = List.filter (fun x => f x =? r) (concat xss).
Proof.
  unfold delivered. induction xss as [|xs xss IH]; [done|]. csimpl. rewrite list_filter_app, <- IH. f_equal. apply items_for_self.
Qed.
Lemma delivered_proj {A B} (f : A -> nat) (g : A -> B) r (xss : list (list A)) :
  delivered r (map (map f) xss) (map (map g) xss) = map g (List.filter (fun x => f x =? r) (concat xss)).
Proof. rewrite delivered_fmap, delivered_self. done. Qed.

Lemma list_filter_perm {A} (f : A -> bool) l k : l ≡ₚ k -> List.filter f l ≡ₚ List.filter f k.
Proof.
  induction 1; simpl; [done|destruct (f x); auto|destruct (f x), (f y); auto; constructor|by etrans].
Qed.
Lemma list_filter_concat {A} (f : A -> bool) L : List.filter f (concat L) = concat (map (List.filter f) L).
Proof. induction L as [|l L IH]; [done|]. simpl. by rewrite list_filter_app, IH. Qed.
Lemma list_filter_all {A} (f : A -> bool) l : (forall x, x ∈ l -> f x = true) -> List.filter f l = l.
Proof. induction l as [|x l IH]; intros H; [done|]. simpl. rewrite (H x) by left. f_equal. apply IH. intros; apply H; by right. Qed.
Lemma list_filter_none {A} (f : A -> bool) l : (forall x, x ∈ l -> f x = false) -> List.filter f l = [].
Proof. induction l as [|x l IH]; intros H; [done|]. simpl. rewrite (H x) by left. apply IH. intros; apply H; by right. Qed.
Lemma list_filter_elem {A} (f : A -> bool) l x : x ∈ List.filter f l <-> x ∈ l /\ f x = true.
Proof. rewrite !elem_of_list_In. apply filter_In. Qed.
Lemma list_filter_map {A B} (g : A -> B) (f : B -> bool) l : List.filter f (map g l) = map g (List.filter (fun x => f (g x)) l).
Proof. induction l as [|x l IH]; [done|]. simpl. destruct (f (g x)); simpl; by rewrite IH. Qed.

(** Every element is in exactly one class. *)
Lemma classes_perm {A} (f : A -> nat) n (l : list A) : (forall x, x ∈ l -> f x < n) ->
  concat (map (fun r => List.filter (fun x => f x =? r) l) (seq 0 n)) ≡ₚ l.
Proof.
  intros H. transitivity (concat (map (fun r => items_for r (map f l) l) (seq 0 n))); [|apply (items_split n (map f l) l)].
  - assert (forall k, map (fun r => List.filter (fun x => f x =? r) l) k = map (fun r => items_for r (map f l) l) k) as E.
    { induction k as [|r k IH]; [done|]. simpl. by rewrite IH, items_for_self. }
    by rewrite E.
  - by rewrite map_length.
  - intros d Hd. apply elem_of_list_In, in_map_iff in Hd as (x&<-&Hx). apply H. by apply elem_of_list_In.
Qed.

(** A rearrangement of the first components can be followed by the pairs. *)
Lemma perm_lift {A B} (l : list (A * B)) (k : list A) : map fst l ≡ₚ k -> exists l', l' ≡ₚ l /\ map fst l' = k.
Proof.
  remember (map fst l) as m eqn:E. intros HP. revert l E.
  induction HP as [|x m k HP IH|x y m|m k k' HP1 IH1 HP2 IH2]; intros l E.
  - exists []. destruct l; done.
  - destruct l as [|[a b] l]; [done|]. simpl in E. injection E as <- E. destruct (IH l E) as (l'&HP'&<-).
    exists ((x, b) :: l'). split; [by rewrite HP'|done].
  - destruct l as [|[a b] [|[a' b'] l]]; try done. simpl in E. injection E as <- <- E.
    exists ((x, b') :: (y, b) :: l). split; [constructor|]. simpl. by rewrite E.
  - destruct (IH1 l E) as (l1&H1&E1). destruct (IH2 l1 (eq_sym E1)) as (l2&H2&E2). exists l2. split; [by rewrite H2|done].
Qed.

(** ** The fill kernel *)
Lemma cells_eq sizes : cells (0 :: run_offsets 0 sizes) = concat (imap (fun q n => map (pair q) (seq (sum_list (take q sizes)) n)) sizes).
Proof.
  unfold cells. simpl length. rewrite run_offsets_length. rewrite Nat.sub_succ, Nat.sub_0_r. f_equal.
  apply list_eq. intros q. rewrite list_lookup_imap. change (map ?f ?l) with (f <$> l) at 1. rewrite list_lookup_fmap.
  destruct (sizes !! q) as [n|] eqn:E.
  - pose proof (lookup_lt_Some _ _ _ E). rewrite (proj2 (lookup_seq 0 (length sizes) q q)) by lia. simpl. f_equal. f_equal.
    change ((run_offsets 0 sizes) !! q) with ((0 :: run_offsets 0 sizes) !! S q).
    rewrite !run_offsets_lookup by lia. cbn [default id]. rewrite (sum_take_S _ _ _ E). simpl. f_equal; lia.
  - apply lookup_ge_None in E. rewrite (proj2 (lookup_ge_None (seq 0 (length sizes)) q)); [done|by rewrite seq_length].
Qed.

Lemma cells_elem sizes q i : (q, i) ∈ cells (0 :: run_offsets 0 sizes) <->
  exists n, sizes !! q = Some n /\ sum_list (take q sizes) <= i < sum_list (take q sizes) + n.
Proof.
  rewrite cells_eq. rewrite elem_of_list_In, in_concat. split.
  - intros (l&Hl&Hi). apply elem_of_list_In, elem_of_lookup_imap in Hl as (q'&n&->&Hq).
    apply in_map_iff in Hi as (i'&[= -> ->]&Hi'). apply in_seq in Hi'. by exists n.
  - intros (n&Hq&Hi). exists (map (pair q) (seq (sum_list (take q sizes)) n)). split.
    + apply elem_of_list_In, elem_of_lookup_imap. by exists q, n.
    + apply in_map. by apply in_seq.
Qed.

Lemma cells_snd sizes : map snd (cells (0 :: run_offsets 0 sizes)) = seq 0 (sum_list sizes).
Proof.
  rewrite cells_eq.
  assert (forall k b, map snd (concat (imap (fun q n => map (pair (k + q)) (seq (b + sum_list (take q sizes)) n)) sizes)) = seq b (sum_list sizes)) as H.
  { induction sizes as [|n sizes IH]; intros k b; [done|].
    cbn [imap concat]. rewrite map_app, map_map. simpl. rewrite seq_app. f_equal.
    - rewrite map_id, Nat.add_0_r. done.
    - rewrite <- (IH (S k) (b + n)). do 2 f_equal. apply imap_ext. intros i x _. simpl. f_equal; [f_equal; lia|f_equal; lia]. }
  apply (H 0 0).
Qed.

Lemma per_item_at {A} (xs : list A) sizes q n i : length xs = length sizes -> sizes !! q = Some n ->
  sum_list (take q sizes) <= i < sum_list (take q sizes) + n -> per_item xs sizes !! i = xs !! q.
Proof.
  intros Hl Hq Hi. unfold per_item.
  destruct (lookup_lt_is_Some_2 xs q) as [x Hx]. { rewrite Hl. by eapply lookup_lt_Some. }
  assert (length <$> zip_with (fun x n => replicate n x) xs sizes = sizes) as EL.
  { clear -Hl. revert sizes Hl. induction xs as [|x xs IH]; intros [|n sizes] Hl; simpl in *; try done.
    rewrite replicate_length. f_equal. apply IH. lia. }
  pose proof (concat_at (zip_with (fun x n => replicate n x) xs sizes) q (replicate n x) (i - sum_list (take q sizes)) x) as H.
  rewrite EL in H. rewrite Hx, <- H.
  - f_equal. lia.
  - rewrite lookup_zip_with, Hx. simpl. by rewrite Hq.
  - apply lookup_replicate_2. lia.
Qed.

Lemma fill_ok {X} (xs : list X) sizes order : length xs = length sizes -> order ≡ₚ cells (0 :: run_offsets 0 sizes) ->
  fill order xs (replicate (sum_list sizes) None) = Some (map Some (per_item xs sizes)).
Proof.
  intros Hl HO.
  assert (forall buf, fill order xs buf = par_writes Some (fun i => Some <$> (per_item xs sizes !! i)) (map snd order) buf) as ->.
  { assert (forall q i, (q, i) ∈ order -> per_item xs sizes !! i = xs !! q) as H.
    { intros q i Hqi. rewrite HO in Hqi. apply cells_elem in Hqi as (n&Hq&Hi). by eapply per_item_at. }
    clear HO. induction order as [|[q i] order IH]; intros buf; [done|]. cbn [fill map par_writes snd mbind option_bind].
    rewrite (H q i) by left. destruct (xs !! q); [|done]. cbn [mbind option_bind fmap option_fmap option_map].
    destruct (wr buf i (Some x)); [|done]. simpl. apply IH. intros q' i' Hi. apply H. by right. }
  assert (map snd order ≡ₚ seq 0 (sum_list sizes)) as HS. { rewrite <- cells_snd. by apply Permutation_map. }
  pose proof (per_item_length xs sizes (eq_sym Hl)) as Hpl.
  destruct (par_writes_correct Some (fun i => Some <$> (per_item xs sizes !! i)) (map snd order) (replicate (sum_list sizes) None)) as (out&E&L&W&_).
  - rewrite HS. apply NoDup_seq.
  - intros i Hi. rewrite HS in Hi. apply elem_of_seq in Hi as [_ Hi].
    destruct (lookup_lt_is_Some_2 (per_item xs sizes) i) as [v Hv]; [lia|]. exists i, (Some v). rewrite Hv, replicate_length. auto.
  - intros i j d _ _ [= ->] [= ->]. done.
  - rewrite E. f_equal. rewrite replicate_length in L. apply list_eq. intros i.
    change (map Some (per_item xs sizes)) with (Some <$> per_item xs sizes). rewrite list_lookup_fmap.
    destruct (decide (i < sum_list sizes)) as [Hi|Hi].
    + rewrite (W i i); [done| |done]. rewrite HS. apply elem_of_seq. lia.
    + rewrite !lookup_ge_None_2; [done|lia..].
Qed.

Lemma FillAll_ok {X} (sizess : list (list nat)) (xss : list (list X)) (post : list (list (option X)) -> Prop) :
  Forall2 (fun xs sizes => length xs = length sizes) xss sizess ->
  post (map (map Some) (zip_with per_item xss sizess)) ->
  FillAll (map (fun sizes => 0 :: run_offsets 0 sizes) sizess) xss post.
Proof.
  intros HF HP order HO. exists (map (map Some) (zip_with per_item xss sizess)). split; [|done].
  pose proof (Forall2_length _ _ _ HF) as HL.
  apply mapM_Some. apply Forall2_same_length_lookup. split; [rewrite seq_length, !map_length, zip_with_length; lia|].
  intros s s' b Hs Hb. apply lookup_seq in Hs as [-> Hs]. simpl in *. rewrite map_length in Hs.
  change (map ?f ?l) with (f <$> l) in Hb. rewrite list_lookup_fmap in Hb.
  destruct (lookup_lt_is_Some_2 sizess s Hs) as [sz Hsz].
  destruct (Forall2_lookup_r _ _ _ _ _ HF Hsz) as (xs&Hxs&Hlen).
  rewrite lookup_zip_with, Hxs in Hb. simpl in Hb. rewrite Hsz in Hb. simpl in Hb. injection Hb as <-.
  assert (map (fun sizes => 0 :: run_offsets 0 sizes) sizess !! s = Some (0 :: run_offsets 0 sz)) as Hoff.
  { change (map ?f ?l) with (f <$> l). by rewrite list_lookup_fmap, Hsz. }
  rewrite Hoff. cbn [mbind option_bind]. rewrite Hxs. cbn [mbind option_bind]. rewrite run_offsets_last. cbn [mbind option_bind].
  apply fill_ok; [done|]. by apply HO.
Qed.

(** ** Plans and exchanges *)
Definition PlanFor (rss : list (list nat)) (pl : plan) : Prop :=
  exists plans, Forall2 PlanOK rss plans /\
    pl = Plan plans ((fun r => receive_graph (pos_edges 0 ((fun rs => cntb (fun y => y =? r) rs) <$> rss))) <$> seq 0 (length plans)).

Lemma WithPlan_ok rss plans (post : plan -> Prop) : Forall2 PlanOK rss plans ->
  (forall ds d, ds ∈ rss -> d ∈ ds -> d < length rss) -> (forall pl, PlanFor rss pl -> post pl) -> WithPlan (Some plans) post.
Proof.
  intros HF Hb HP. exists plans. split; [done|]. intros graph HG. pose proof (Forall2_length _ _ _ HF) as HL.
  eexists. split; [apply (prepare_ok rss plans graph HF HG)|].
  - intros s rs d Hs Hd. rewrite <- HL. apply (Hb rs d); [by eapply elem_of_list_lookup_2|done].
  - apply HP. exists plans. done.
Qed.

Lemma ExchangeAll_ok {X} rss pl (xss : list (list X)) (post : list (list (option X)) -> Prop) : PlanFor rss pl ->
  Forall2 (fun rs xs => length xs = length rs) rss xss ->
  post (map (fun r => map Some (delivered r rss xss)) (seq 0 (length rss))) ->
  ExchangeAll pl (map (map Some) xss) post.
Proof.
  intros (plans&HF&->) HX HP order arrival HO HA. pose proof (Forall2_length _ _ _ HF) as HL.
  eexists. split; [|exact HP].
  rewrite (exchange_ok rss plans (map (map Some) xss) _ order arrival HF); try done.
  - f_equal. rewrite <- HL. apply map_ext. intros r. apply delivered_fmap.
  - apply (Forall2_fmap_r (map Some)). eapply Forall2_impl; [exact HX|]. intros ds xs H. simpl. by rewrite map_length.
  - intros s rs Hs. destruct (Forall2_lookup_l _ _ _ _ _ HX Hs) as (xs&Hxs&Hlen).
    rewrite (HO s (map Some xs)).
    + by rewrite map_length, Hlen.
    + change (map ?f ?l) with (f <$> l) at 1. by rewrite list_lookup_fmap, Hxs.
Qed.

(** The same for items that carry their destination. *)
Lemma ExchangeAll_self {T X} (f : T -> nat) (g : T -> X) (xss : list (list T)) pl (post : list (list (option X)) -> Prop) :
  PlanFor (map (map f) xss) pl ->
  post (map (fun r => map Some (map g (List.filter (fun x => f x =? r) (concat xss)))) (seq 0 (length xss))) ->
  ExchangeAll pl (map (map Some) (map (map g) xss)) post.
Proof.
  intros HP Hpost. apply (ExchangeAll_ok (map (map f) xss)); [done| |].
  - clear. induction xss; simpl; constructor; auto. by rewrite !map_length.
  - rewrite map_length. erewrite map_ext; [exact Hpost|]. intros r. simpl. by rewrite delivered_proj.
Qed.

Lemma IsOffsets_run {A} (R : list (list A)) off : IsOffsets R off -> off = 0 :: run_offsets 0 (length <$> R).
Proof.
  intros [HL H]. apply list_eq. intros q. destruct (decide (q <= length R)) as [Hq|Hq].
  - rewrite H by done. rewrite run_offsets_lookup by (rewrite fmap_length; lia). simpl. by rewrite length_concat_take.
  - rewrite !lookup_ge_None_2; [done|simpl; rewrite run_offsets_length, fmap_length; lia|lia].
Qed.

(** ** Merging on one rank *)
Lemma increments_ok ids : forall counts, (forall i, i ∈ ids -> i < length counts) ->
  exists counts', increments ids counts = Some counts' /\ length counts' = length counts /\
    forall j c, counts !! j = Some c -> counts' !! j = Some (c + cntb (fun x => x =? j) ids).
Proof.
  induction ids as [|i ids IH]; intros counts Hb.
  { exists counts. split; [done|]. split; [done|]. intros j c Hj. simpl. by rewrite Nat.add_0_r. }
  assert (i < length counts) as Hi by (apply Hb; left).
  destruct (lookup_lt_is_Some_2 counts i Hi) as [c Hc]. cbn [increments]. rewrite Hc. cbn [mbind option_bind].
  rewrite wr_Some by done. cbn [mbind option_bind].
  destruct (IH (<[i:=S c]> counts)) as (counts'&E&L&G). { intros j Hj. rewrite insert_length. apply Hb. by right. }
  exists counts'. split; [done|]. rewrite insert_length in L. split; [done|].
  intros j cj Hj. simpl. destruct (Nat.eqb_spec i j) as [->|Hne].
  - rewrite (G j (S c)) by (by apply list_lookup_insert). simpl. f_equal. assert (cj = c) by congruence. lia.
  - rewrite (G j cj) by (by rewrite list_lookup_insert_ne). done.
Qed.

Lemma sorted_split {A} (key : A -> nat) m (l : list A) : StronglySorted (fun a b => key a <= key b) l ->
  l = List.filter (fun x => key x <? m) l ++ List.filter (fun x => m <=? key x) l.
Proof.
  induction 1 as [|x l HS IH HF]; [done|]. simpl. rewrite Forall_forall in HF.
  destruct (Nat.ltb_spec (key x) m), (Nat.leb_spec m (key x)); try lia; simpl.
  - by rewrite <- IH.
  - rewrite (list_filter_none (fun x => key x <? m)).
    + simpl. f_equal. rewrite list_filter_all; [done|]. intros y Hy. apply Nat.leb_le. pose proof (HF y Hy). simpl in *. lia.
    + intros y Hy. apply Nat.ltb_ge. pose proof (HF y Hy). simpl in *. lia.
Qed.

Lemma SS_filter {A} (R : A -> A -> Prop) f l : StronglySorted R l -> StronglySorted R (List.filter f l).
Proof.
  induction 1 as [|x l HS IH HF]; simpl; [constructor|]. destruct (f x); [|done]. constructor; [done|].
  rewrite Forall_forall in *. intros y Hy. apply list_filter_elem in Hy as [? _]. by apply HF.
Qed.

Lemma filter_filter {A} (f g : A -> bool) l : List.filter f (List.filter g l) = List.filter (fun x => f x && g x) l.
Proof.
  induction l as [|x l IH]; [done|]. simpl. destruct (g x); simpl; [|by rewrite andb_false_r].
  rewrite andb_true_r. destruct (f x); by rewrite IH.
Qed.
Lemma filter_ext_l {A} (f g : A -> bool) l : (forall x, x ∈ l -> f x = g x) -> List.filter f l = List.filter g l.
Proof.
  induction l as [|a l IH]; intros H; [done|]. simpl. rewrite (H a) by left. destruct (g a); rewrite IH; auto; intros; apply H; by right.
Qed.

Lemma sorted_groups {A} (key : A -> nat) n (l : list A) : StronglySorted (fun a b => key a <= key b) l -> (forall x, x ∈ l -> key x < n) ->
  l = concat (map (fun j => List.filter (fun x => key x =? j) l) (seq 0 n)).
Proof.
  revert l. induction n as [|n IH]; intros l HS Hb.
  - destruct l as [|x l]; [done|]. specialize (Hb x ltac:(left)). lia.
  - rewrite seq_S, map_app, concat_app. simpl. rewrite app_nil_r.
    rewrite (sorted_split key n l HS) at 1. f_equal.
    + rewrite (IH (List.filter (fun x => key x <? n) l)) at 1.
      * f_equal. apply map_ext_in. intros j Hj. apply in_seq in Hj. rewrite filter_filter. apply filter_ext_l. intros x _.
        destruct (Nat.eqb_spec (key x) j), (Nat.ltb_spec (key x) n); simpl; auto; lia.
      * by apply SS_filter.
      * intros x Hx. apply list_filter_elem in Hx as [_ Hx]. by apply Nat.ltb_lt.
    + apply filter_ext_l. intros x Hx. pose proof (Hb x Hx).
      destruct (Nat.leb_spec n (key x)), (Nat.eqb_spec (key x) n); auto; lia.
Qed.

Lemma MergeResults_ok {B} n (items : list (nat * B)) (post : list (option B) -> list nat -> Prop) :
  (forall x, x ∈ items -> x.1 < n) ->
  (forall vals off, CrsAnswer (map (fun j => map snd (List.filter (fun x => x.1 =? j) items)) (seq 0 n)) vals off -> post vals off) ->
  MergeResults n (map Some (map fst items)) (map Some (map snd items)) post.
Proof.
  intros Hb HP. exists (map fst items). split; [apply init_Some|]. intros order HO.
  destruct (increments_ok order (replicate (S n) 0)) as (counts&E&L&G).
  { intros i Hi. rewrite HO in Hi. apply elem_of_list_In, in_map_iff in Hi as (x&<-&Hx). rewrite replicate_length.
    pose proof (Hb x ltac:(by apply elem_of_list_In)). lia. }
  exists counts. split; [done|]. rewrite replicate_length in L. intros sorted HPm HS. apply HP.
  set (R := map (fun j => map snd (List.filter (fun x => x.1 =? j) items)) (seq 0 n)).
  assert (zip (map fst items) (map Some (map snd items)) = map (fun x => (x.1, Some x.2)) items) as EZ.
  { clear. induction items as [|[j v] items IH]; [done|]. simpl. by rewrite IH. }
  rewrite EZ in HPm.
  assert (forall j, j < n -> counts !! j = Some (length (List.filter (fun x : nat * B => x.1 =? j) items))) as HC.
  { intros j Hj. rewrite (G j 0) by (apply lookup_replicate_2; lia). f_equal. simpl.
    rewrite (Permutation_length (list_filter_perm _ _ _ HO)). rewrite list_filter_map, map_length. done. }
  assert (R = (fun j => map snd (List.filter (fun x => x.1 =? j) items)) <$> seq 0 n) as ER by done.
  assert (length R = n) as LR by (unfold R; by rewrite map_length, seq_length).
  split.
  - split; [rewrite excl_scan_length; lia|]. intros q Hq. rewrite excl_scan_lookup by lia. f_equal. simpl.
    rewrite length_concat_take. f_equal. apply list_eq. intros i.
    destruct (decide (i < q)) as [Hi|Hi]; [|rewrite !lookup_take_ge by lia; done].
    rewrite !lookup_take by lia. rewrite HC by lia. rewrite ER, <- list_fmap_compose, list_lookup_fmap.
    rewrite (proj2 (lookup_seq 0 n i i)) by lia. simpl. by rewrite map_length.
  - apply Permutation_map_inv in HPm as (items'&->&HI).
    exists (map (fun j => map snd (List.filter (fun x => x.1 =? j) items')) (seq 0 n)). split.
    + unfold R. clear -HI. induction (seq 0 n) as [|j l IH]; simpl; constructor; [|done].
      apply Permutation_map, list_filter_perm. by symmetry.
    + rewrite map_map. simpl. rewrite <- (map_map snd Some). f_equal.
      rewrite (sorted_groups fst n items') at 1.
      * rewrite concat_map, map_map. done.
      * clear -HS. induction items' as [|x l IH]; [constructor|]. simpl in HS. apply StronglySorted_inv in HS as [HS HF].
        constructor; [by apply IH|]. rewrite Forall_forall. intros y Hy.
        rewrite List.Forall_forall in HF. apply (HF (y.1, Some y.2)).
        apply in_map_iff. exists y. split; [done|]. by apply elem_of_list_In.
      * intros x Hx. apply Hb. by rewrite HI.
Qed.

Lemma CrsAnswer_perm {A} (R R' : list (list A)) out off : Forall2 (fun l r => l ≡ₚ r) R R' -> CrsAnswer R out off -> CrsAnswer R' out off.
Proof.
  intros HP [[HL HO] (L&HF&HC)]. pose proof (Forall2_length _ _ _ HP) as HR. split.
  - split; [congruence|]. intros q Hq. rewrite HO by lia. f_equal. rewrite !length_concat_take. f_equal. f_equal.
    clear -HP. induction HP as [|l r L R H HF IH]; csimpl; [done|]. by rewrite IH, (Permutation_length H).
  - exists L. split; [|done]. clear -HF HP. revert L HF. induction HP as [|l r R R' H HP IH]; intros L HF; inversion HF; subst; constructor; [by etrans|by apply IH].
Qed.

Lemma list_choice {X Y} (l : list X) (Pr : nat -> X -> Y -> Prop) : (forall i x, l !! i = Some x -> exists y, Pr i x y) ->
  exists k, length k = length l /\ forall i x y, l !! i = Some x -> k !! i = Some y -> Pr i x y.
Proof.
  revert Pr. induction l as [|x l IH]; intros Pr H; [by exists []|].
  destruct (H 0 x eq_refl) as [y Hy].
  destruct (IH (fun i => Pr (S i))) as (k&HL&Hk). { intros i z Hz. by apply (H (S i)). }
  exists (y :: k). simpl. split; [lia|]. intros [|i] a b Ha Hb; simpl in *; [by simplify_eq|by eapply Hk].
Qed.

(** ** Tasks: one per query and rank it is forwarded to *)
Section Tasks.
Context {Q B : Type}.
Notation task := ((nat * nat) * (Q * nat))%type.
Notation t_s := (fun t : task => t.1.1).
Notation t_j := (fun t : task => t.1.2).
Notation t_q := (fun t : task => t.2.1).
Notation t_r := (fun t : task => t.2.2).

Fixpoint tasks_from (s j : nat) (p : list Q) (ts : list (list nat)) : list task :=
  match p, ts with
  | q :: p, rs :: ts => map (fun r => ((s, j), (q, r))) rs ++ tasks_from s (S j) p ts
  | _, _ => []
  end.
Fixpoint all_tasks (s : nat) (preds : list (list Q)) (TS : list (list (list nat))) : list (list task) :=
  match preds, TS with
  | p :: preds, ts :: TS => tasks_from s 0 p ts :: all_tasks (S s) preds TS
  | _, _ => []
  end.

Lemma tasks_r s p : forall j ts, length p = length ts -> map t_r (tasks_from s j p ts) = concat ts.
Proof. induction p as [|q p IH]; intros j [|rs ts] H; simpl in *; try done. rewrite map_app, map_map, IH by lia. simpl. by rewrite map_id. Qed.
Lemma map_const {X Y} (y : Y) (l : list X) : map (fun _ => y) l = replicate (length l) y.
Proof. induction l; simpl; congruence. Qed.
Lemma tasks_q s p : forall j ts, length p = length ts -> map t_q (tasks_from s j p ts) = per_item p (length <$> ts).
Proof.
  induction p as [|q p IH]; intros j [|rs ts] H; simpl in *; try done. rewrite map_app, map_map, IH by lia. simpl.
  csimpl. by rewrite per_item_cons, map_const.
Qed.
Lemma tasks_j s p : forall j ts, length p = length ts -> map t_j (tasks_from s j p ts) = per_item (seq j (length p)) (length <$> ts).
Proof.
  induction p as [|q p IH]; intros j [|rs ts] H; simpl in *; try done. rewrite map_app, map_map, IH by lia. simpl.
  csimpl. by rewrite per_item_cons, map_const.
Qed.
Lemma tasks_s s p : forall j ts, length p = length ts -> map t_s (tasks_from s j p ts) = replicate (sum_list (length <$> ts)) s.
Proof.
  induction p as [|q p IH]; intros j [|rs ts] H; simpl in *; try done. rewrite map_app, map_map, IH by lia. simpl.
  rewrite map_const, <- replicate_add. done.
Qed.
Lemma tasks_s_elem s p : forall j ts t, t ∈ tasks_from s j p ts -> t_s t = s.
Proof.
  induction p as [|q p IH]; intros j [|rs ts] t Ht; simpl in *; try (by apply elem_of_nil in Ht).
  apply elem_of_app in Ht as [Ht|Ht]; [|by eapply IH]. apply elem_of_list_In, in_map_iff in Ht as (r&<-&_). done.
Qed.
Lemma tasks_j_elem s p : forall j ts t, t ∈ tasks_from s j p ts -> j <= t_j t < j + length p.
Proof.
  induction p as [|q p IH]; intros j [|rs ts] t Ht; simpl in *; try (by apply elem_of_nil in Ht).
  apply elem_of_app in Ht as [Ht|Ht]; [apply elem_of_list_In, in_map_iff in Ht as (r&<-&_); simpl; lia|].
  apply IH in Ht. lia.
Qed.
Lemma tasks_key s p : forall j ts j0 q rs, p !! j0 = Some q -> ts !! j0 = Some rs ->
  List.filter (fun t => t_j t =? j + j0) (tasks_from s j p ts) = map (fun r => ((s, j + j0), (q, r))) rs.
Proof.
  induction p as [|q' p IH]; intros j [|rs' ts] j0 q rs Hq Hrs; simpl in *; try done.
  rewrite list_filter_app. destruct j0 as [|j0]; simpl in *.
  - injection Hq as ->. injection Hrs as ->. rewrite Nat.add_0_r. rewrite list_filter_all.
    + rewrite (list_filter_none (A := task)); [by rewrite app_nil_r|]. intros t Ht. apply tasks_j_elem in Ht. apply Nat.eqb_neq. lia.
    + intros t Ht. apply elem_of_list_In, in_map_iff in Ht as (r&<-&_). apply Nat.eqb_refl.
  - rewrite (list_filter_none (A := task)).
    + simpl. replace (j + S j0) with (S j + j0) by lia. by apply IH.
    + intros t Ht. apply elem_of_list_In, in_map_iff in Ht as (r&<-&_). simpl. apply Nat.eqb_neq. lia.
Qed.

Lemma all_tasks_length preds : forall s TS, length preds = length TS -> length (all_tasks s preds TS) = length preds.
Proof. induction preds as [|p preds IH]; intros s [|ts TS] H; simpl in *; try done. rewrite IH; lia. Qed.
Lemma all_tasks_lookup preds : forall s TS i p ts, preds !! i = Some p -> TS !! i = Some ts -> all_tasks s preds TS !! i = Some (tasks_from (s + i) 0 p ts).
Proof.
  induction preds as [|p' preds IH]; intros s [|ts' TS] i p ts Hp Hts; try done. destruct i as [|i]; simpl in *.
  - simplify_eq. by rewrite Nat.add_0_r.
  - rewrite (IH (S s) TS i p ts) by done. do 2 f_equal. lia.
Qed.
Lemma all_tasks_s preds : forall s TS t, t ∈ concat (all_tasks s preds TS) -> s <= t_s t.
Proof.
  induction preds as [|p preds IH]; intros s [|ts TS] t Ht; simpl in *; try (by apply elem_of_nil in Ht).
  apply elem_of_app in Ht as [Ht|Ht]; [apply tasks_s_elem in Ht; simpl in *; lia|]. apply IH in Ht. lia.
Qed.
Lemma all_tasks_sorted preds : forall s TS, StronglySorted (fun a b => t_s a <= t_s b) (concat (all_tasks s preds TS)).
Proof.
  induction preds as [|p preds IH]; intros s [|ts TS]; simpl; try constructor.
  assert (forall l k : list task, (forall t, t ∈ l -> t_s t = s) -> (forall t, t ∈ k -> s <= t_s t) ->
    StronglySorted (fun a b => t_s a <= t_s b) k -> StronglySorted (fun a b => t_s a <= t_s b) (l ++ k)) as H.
  { induction l as [|x l IHl]; intros k Hl Hk HS; [done|]. simpl. constructor.
    - apply IHl; [intros; apply Hl; by right|done|done].
    - apply Forall_forall. intros y Hy. pose proof (Hl x ltac:(left)) as Hx. simpl in Hx. rewrite Hx.
      apply elem_of_app in Hy as [Hy|Hy]; [rewrite (Hl y) by (by right); done|by apply Hk]. }
  apply H; [intros t Ht; by apply tasks_s_elem in Ht|intros t Ht; apply all_tasks_s in Ht; simpl in *; lia|apply IH].
Qed.
Lemma all_tasks_key preds : forall s TS i j p ts q rs, preds !! i = Some p -> TS !! i = Some ts -> p !! j = Some q -> ts !! j = Some rs ->
  List.filter (fun t => (t_s t =? s + i) && (t_j t =? j)) (concat (all_tasks s preds TS)) = map (fun r => ((s + i, j), (q, r))) rs.
Proof.
  induction preds as [|p' preds IH]; intros s [|ts' TS] i j p ts q rs Hp Hts Hq Hrs; try done.
  cbn [all_tasks concat]. rewrite list_filter_app. destruct i as [|i]; simpl in Hp, Hts.
  - simplify_eq. rewrite Nat.add_0_r. rewrite (list_filter_none _ (concat _)).
    + rewrite app_nil_r. pose proof (tasks_key s p 0 ts j q rs Hq Hrs) as HK. simpl in HK. etransitivity; [|exact HK]. apply filter_ext_l.
      intros t Ht. apply tasks_s_elem in Ht. simpl in Ht. rewrite Ht, Nat.eqb_refl. done.
    + intros t Ht. apply all_tasks_s in Ht. simpl in Ht. destruct (Nat.eqb_spec (t.1.1) s); [lia|done].
  - rewrite list_filter_none.
    + simpl. replace (s + S i) with (S s + i) by lia. by apply (IH (S s) TS i j p ts q rs).
    + intros t Ht. apply tasks_s_elem in Ht. simpl in Ht. rewrite Ht. destruct (Nat.eqb_spec s (s + S i)); [lia|done].
Qed.
Lemma all_tasks_map {X} (g : task -> X) (h : list Q -> list (list nat) -> nat -> list X) preds : forall s TS,
  Forall2 (fun p ts => length p = length ts) preds TS ->
  (forall s p ts, length p = length ts -> map g (tasks_from s 0 p ts) = h p ts s) ->
  map (map g) (all_tasks s preds TS) = imap (fun i '(p, ts) => h p ts (s + i)) (zip preds TS).
Proof.
  intros s TS HF Hg. revert s. induction HF as [|p ts preds TS Hl HF IH]; intros s; [done|].
  cbn [all_tasks map zip zip_with imap]. rewrite Hg by done. rewrite Nat.add_0_r. f_equal. rewrite IH. apply imap_ext.
  intros i [x y] _. simpl. f_equal. lia.
Qed.
Lemma all_tasks_elem preds : forall s TS t, Forall2 (fun p ts => length p = length ts) preds TS ->
  t ∈ concat (all_tasks s preds TS) ->
  exists i p ts rs, preds !! i = Some p /\ TS !! i = Some ts /\ t_s t = s + i /\ p !! t_j t = Some (t_q t) /\ ts !! t_j t = Some rs /\ t_r t ∈ rs.
Proof.
  induction preds as [|p preds IH]; intros s TS t HF Ht; [by apply elem_of_nil in Ht|].
  inversion HF as [|? ts ? TS' Hl HF']; subst. simpl in Ht. apply elem_of_app in Ht as [Ht|Ht].
  - assert (forall j p ts, t ∈ tasks_from s j p ts -> exists rs, j <= t_j t /\ p !! (t_j t - j) = Some (t_q t) /\ ts !! (t_j t - j) = Some rs /\ t_r t ∈ rs) as H.
    { clear. intros j p. revert j. induction p as [|q p IH]; intros j [|rs ts] Ht; try (by apply elem_of_nil in Ht).
      simpl in Ht. apply elem_of_app in Ht as [Ht|Ht].
      - apply elem_of_list_In, in_map_iff in Ht as (r&<-&Hr). simpl. exists rs. rewrite Nat.sub_diag. split; [lia|]. split; [done|]. split; [done|]. by apply elem_of_list_In.
      - destruct (IH _ _ Ht) as (rs'&H1&H2&H3&H4). exists rs'. split; [lia|]. replace (t.1.2 - j) with (S (t.1.2 - S j)) by lia. done. }
    pose proof (tasks_s_elem _ _ _ _ _ Ht) as Es. destruct (H _ _ _ Ht) as (rs&_&H2&H3&H4). rewrite Nat.sub_0_r in *.
    exists 0, p, ts, rs. rewrite Nat.add_0_r. done.
  - destruct (IH (S s) TS' t HF' Ht) as (i&p'&ts'&rs&H1&H2&H3&H4). exists (S i), p', ts', rs. rewrite H3. split; [done|]. split; [done|]. split; [lia|done].
Qed.

(** What the ranks send back. *)
Definition back (Dr : list task) (Lr : list (list B)) : list ((nat * nat) * B) :=
  concat (zip_with (fun t l => map (fun v => (t.1, v)) l) Dr Lr).

Lemma back_s Dr : forall Lr, length Dr = length Lr -> map (fun x => x.1.1) (back Dr Lr) = per_item (map t_s Dr) (length <$> Lr).
Proof.
  induction Dr as [|t Dr IH]; intros [|l Lr] H; simpl in *; try done. unfold back in *. csimpl. rewrite map_app, map_map. simpl.
  rewrite map_const, IH by lia. done.
Qed.
Lemma back_j Dr : forall Lr, length Dr = length Lr -> map (fun x => x.1.2) (back Dr Lr) = per_item (map t_j Dr) (length <$> Lr).
Proof.
  induction Dr as [|t Dr IH]; intros [|l Lr] H; simpl in *; try done. unfold back in *. csimpl. rewrite map_app, map_map. simpl.
  rewrite map_const, IH by lia. done.
Qed.
Lemma back_v Dr : forall Lr, length Dr = length Lr -> map snd (back Dr Lr) = concat Lr.
Proof.
  induction Dr as [|t Dr IH]; intros [|l Lr] H; simpl in *; try done. unfold back in *. csimpl. rewrite map_app, map_map. simpl.
  rewrite map_id, IH by lia. done.
Qed.
Lemma back_zip Dr : forall Lr, back Dr Lr = concat (map (fun tl => map (fun v => (tl.1.1, v)) tl.2) (zip Dr Lr)).
Proof. induction Dr as [|t Dr IH]; intros [|l Lr]; try done. unfold back in *. csimpl. by rewrite IH. Qed.

Lemma back_filter (f : nat * nat -> bool) (LL : list (task * list B)) :
  List.filter (fun x => f x.1) (concat (map (fun tl => map (fun v => (tl.1.1, v)) tl.2) LL)) =
  concat (map (fun tl => map (fun v => (tl.1.1, v)) tl.2) (List.filter (fun tl => f tl.1.1) LL)).
Proof.
  induction LL as [|[t l] LL IH]; [done|]. simpl. rewrite list_filter_app, IH, list_filter_map. simpl.
  destruct (f t.1) eqn:E; simpl.
  - f_equal. f_equal. apply list_filter_all. intros v _. simpl. done.
  - rewrite list_filter_none; [done|]. intros v _. done.
Qed.
End Tasks.

Lemma sorted_grouped (l : list nat) : StronglySorted le l -> Grouped l.
Proof.
  intros HS i j k a b Hij Hjk Ha Hb Hc.
  assert (forall l : list nat, StronglySorted le l -> forall i j a b, i < j -> l !! i = Some a -> l !! j = Some b -> a <= b) as H.
  { clear. induction 1 as [|x l HS IH HF]; intros i j a b Hij Ha Hb; [done|]. destruct j as [|j]; [lia|]. destruct i as [|i]; simpl in *.
    - injection Ha as ->. rewrite Forall_forall in HF. apply HF. by eapply elem_of_list_lookup_2.
    - apply (IH i j a b); [lia|done|done]. }
  pose proof (H l HS i j a b Hij Ha Hb). pose proof (H l HS j k b a Hjk Hb Hc). lia.
Qed.

Lemma own_rank_eq sizess : own_rank (map (fun sizes => 0 :: run_offsets 0 sizes) sizess) =
  map (map Some) (imap (fun s sizes => replicate (sum_list sizes) s) sizess).
Proof.
  unfold own_rank.
  assert (forall k, imap (fun s off => replicate (default 0 (last off)) (Some (k + s))) (map (fun sizes => 0 :: run_offsets 0 sizes) sizess) =
    map (map Some) (imap (fun s sizes => replicate (sum_list sizes) (k + s)) sizess)) as H; [|apply (H 0)].
  induction sizess as [|sz sizess IH]; intros k; [done|]. cbn [map imap]. rewrite run_offsets_last. cbn [default id]. rewrite Nat.add_0_l. f_equal.
  - change (map Some) with (fmap (M := list) (A := nat) Some). by rewrite fmap_replicate.
  - specialize (IH (S k)).
    transitivity (imap (fun s off => replicate (default 0 (last off)) (Some (S k + s))) (map (fun sizes => 0 :: run_offsets 0 sizes) sizess)).
    + apply imap_ext. intros i x _. simpl. do 2 f_equal. lia.
    + rewrite IH. f_equal. apply imap_ext. intros i x _. simpl. f_equal. lia.
Qed.

Lemma imap_zip_map {X Y Z} (h : X -> Y -> Z) (l : list X) (k : list Y) s : 
  imap (fun i '(x, y) => (fun x y (_ : nat) => h x y) x y (s + i)) (zip l k) = zip_with h l k.
Proof. revert s k. induction l as [|x l IH]; intros s [|y k]; try done. cbn [zip zip_with imap]. f_equal. rewrite <- (IH (S s)). apply imap_ext. intros i [a b] _. done. Qed.

Lemma batched_plans rks sizess : Forall2 (fun rk sz => Grouped rk /\ length sz = length rk) rks sizess ->
  exists plans, mapM (fun r => rk ← rks !! r; off ← map (fun sz => 0 :: run_offsets 0 sz) sizess !! r; createFromSends_batched rk off) (seq 0 (length rks)) = Some plans /\
    Forall2 PlanOK (zip_with per_item rks sizess) plans.
Proof.
  intros HF. pose proof (Forall2_length _ _ _ HF) as HL.
  destruct (list_choice (zip rks sizess) (fun _ '(rk, sz) p => createFromSends_batched rk (0 :: run_offsets 0 sz) = Some p /\ PlanOK (per_item rk sz) p)) as (plans&Hl&H).
  { intros r [rk sz] Hr. apply lookup_zip_with_Some in Hr as (?&?&[= <- <-]&Hrk&Hsz).
    destruct (Forall2_lookup_lr _ _ _ _ _ _ HF Hrk Hsz). by apply batched_plan. }
  rewrite zip_with_length in Hl. exists plans. split.
  - apply mapM_Some, Forall2_same_length_lookup. split; [rewrite seq_length; lia|]. intros i r p Hr Hp. apply lookup_seq in Hr as [-> Hr]. simpl.
    destruct (lookup_lt_is_Some_2 rks i) as [rk Hrk]; [done|]. destruct (lookup_lt_is_Some_2 sizess i) as [sz Hsz]; [lia|].
    rewrite Hrk. change (map ?f ?l) with (f <$> l). cbn [mbind option_bind]. rewrite list_lookup_fmap, Hsz. cbn [mbind option_bind fmap option_fmap option_map].
    apply (H i (rk, sz)); [|done]. apply lookup_zip_with_Some. by exists rk, sz.
  - apply Forall2_same_length_lookup. split; [rewrite zip_with_length; lia|]. intros i x p Hx Hp.
    apply lookup_zip_with_Some in Hx as (rk&sz&->&Hrk&Hsz). apply (H i (rk, sz) p); [|done]. apply lookup_zip_with_Some. by exists rk, sz.
Qed.
Lemma sorted_map_le {X} (f : X -> nat) l : StronglySorted (fun a b => f a <= f b) l -> StronglySorted le (map f l).
Proof. induction 1 as [|x l HS IH HF]; simpl; constructor; [done|]. apply Forall_forall. intros y Hy. apply elem_of_list_In, in_map_iff in Hy as (z&<-&Hz). rewrite Forall_forall in HF. by apply HF, elem_of_list_In. Qed.
Lemma concat_perm {X} (l k : list (list X)) : l ≡ₚ k -> concat l ≡ₚ concat k.
Proof. induction 1; simpl; [done|by f_equiv|by rewrite !app_assoc, (Permutation_app_comm x y) || (rewrite !app_assoc; f_equiv; apply Permutation_app_comm)|by etrans]. Qed.

Lemma forward_ok {Q B} (Ans : nat -> Q -> list B -> Prop) (preds : list (list Q)) (TS : list (list (list nat)))
    (post : nat -> list (option B) -> list nat -> Prop) :
  Forall2 (fun p ts => length p = length ts) preds TS ->
  (forall ts rs r, ts ∈ TS -> rs ∈ ts -> r ∈ rs -> r < length preds) ->
  (forall s p ts vals off R, preds !! s = Some p -> TS !! s = Some ts ->
     Forall2 (fun '(q, rs) row => exists ls, Forall2 (fun r l => Ans r q l) rs ls /\ row = concat ls) (zip p ts) R ->
     CrsAnswer R vals off -> post s vals off) ->
  forwardQueriesAndCommunicateResults Ans preds (map (@concat nat) TS) (map (fun ts => 0 :: run_offsets 0 (length <$> ts)) TS) post.
Proof.
  intros HF Hb Hpost.
  pose proof (Forall2_length _ _ _ HF) as HLen.
  set (P := length preds) in *.
  set (T := all_tasks 0 preds TS).
  assert (length T = P) as HT by (by apply all_tasks_length).
  set (sizess := map (fun ts : list (list nat) => length <$> ts) TS).
  assert (map (fun ts : list (list nat) => 0 :: run_offsets 0 (length <$> ts)) TS = map (fun sz => 0 :: run_offsets 0 sz) sizess) as ->.
  { unfold sizess. by rewrite map_map. }
  assert (map (@concat nat) TS = map (map (fun t => t.2.2)) T) as ER.
  { unfold T. rewrite (all_tasks_map _ (fun _ ts _ => concat ts) preds 0 TS HF (fun s p ts H => tasks_r s p 0 ts H)).
    rewrite (imap_zip_map (fun _ ts => concat ts) preds TS 0). clear -HF. induction HF; simpl; congruence. }
  assert (zip_with per_item preds sizess = map (map (fun t => t.2.1)) T) as EQ.
  { unfold T. rewrite (all_tasks_map _ (fun p ts _ => per_item p (length <$> ts)) preds 0 TS HF (fun s p ts H => tasks_q s p 0 ts H)).
    rewrite (imap_zip_map (fun p (ts : list (list nat)) => per_item p (length <$> ts)) preds TS 0). unfold sizess. clear -HF. induction HF; simpl; congruence. }
  assert (zip_with per_item (map (fun p => seq 0 (length p)) preds) sizess = map (map (fun t => t.1.2)) T) as EJ.
  { unfold T. rewrite (all_tasks_map _ (fun p ts _ => per_item (seq 0 (length p)) (length <$> ts)) preds 0 TS HF (fun s p ts H => tasks_j s p 0 ts H)).
    rewrite (imap_zip_map (fun p (ts : list (list nat)) => per_item (seq 0 (length p)) (length <$> ts)) preds TS 0). unfold sizess. clear -HF. induction HF; simpl; congruence. }
  assert (imap (fun s sizes => replicate (sum_list sizes) s) sizess = map (map (fun t => t.1.1)) T) as ES.
  { unfold T. rewrite (all_tasks_map _ (fun p ts s => replicate (sum_list (length <$> ts)) s) preds 0 TS HF (fun s p ts H => tasks_s s p 0 ts H)).
    unfold sizess. clear -HF. 
    assert (forall k, imap (fun s sizes => replicate (sum_list sizes) (k + s)) (map (fun ts : list (list nat) => length <$> ts) TS) =
      imap (fun i '(_, ts) => replicate (sum_list (length <$> ts)) (k + i)) (zip preds TS)) as H; [|apply (H 0)].
    induction HF as [|p ts preds TS Hl HF IH]; intros k; [done|]. cbn [map imap zip zip_with]. f_equal.
    transitivity (imap (fun s sizes => replicate (sum_list sizes) (S k + s)) (map (fun ts : list (list nat) => length <$> ts) TS)).
    - apply imap_ext. intros i x _. simpl. f_equal. lia.
    - rewrite IH. apply imap_ext. intros i [x y] _. simpl. f_equal. lia. }
  assert (forall t, t ∈ concat T -> t.1.1 < P /\ t.2.2 < P) as HTb.
  { intros t Ht. destruct (all_tasks_elem preds 0 TS t HF Ht) as (i&p&ts&rs&H1&H2&H3&H4&H5&H6). split.
    - rewrite H3. by eapply lookup_lt_Some.
    - eapply Hb; [by eapply elem_of_list_lookup_2|by eapply elem_of_list_lookup_2|done]. }
  set (D := map (fun r => List.filter (fun t => t.2.2 =? r) (concat T)) (seq 0 P)).
  assert (length D = P) as HD by (unfold D; by rewrite map_length, seq_length).
  unfold forwardQueriesAndCommunicateResults, forwardQueries.
  destruct (plans_exist (map (@concat nat) TS)) as (plans&->&HPl).
  apply (WithPlan_ok (map (@concat nat) TS)); [done| |].
  { intros ds d Hds Hd. rewrite map_length, <- HLen. apply elem_of_list_In, in_map_iff in Hds as (ts&<-&Hts).
    apply elem_of_list_In, in_concat in Hd as (rs&Hrs&Hd). eapply (Hb ts rs d); by apply elem_of_list_In. }
  intros pl HPF. rewrite ER in HPF.
  apply FillAll_ok.
  { unfold sizess. clear -HF. induction HF; simpl; constructor; [by rewrite fmap_length|done]. }
  rewrite EQ. eapply (ExchangeAll_self (fun t => t.2.2)); [done|].
  rewrite own_rank_eq, ES. eapply (ExchangeAll_self (fun t => t.2.2)); [done|].
  apply FillAll_ok.
  { unfold sizess. clear -HF. induction HF; simpl; constructor; [by rewrite fmap_length, seq_length|done]. }
  rewrite EJ. eapply (ExchangeAll_self (fun t => t.2.2)); [done|].
  rewrite HT.
  assert (forall X (g : _ -> X), map (fun r => map Some (map g (List.filter (fun x : nat * nat * (Q * nat) => x.2.2 =? r) (concat T)))) (seq 0 P) = map (map Some) (map (map g) D)) as EM.
  { intros X g. unfold D. by rewrite !map_map. }
  rewrite !EM.
  (* bottom trees *)
  exists (map (map (fun t => t.2.1)) D). split; [apply init_all|].
  intros outs offs HLo HLf Hans. rewrite !map_length in HLo, HLf.
  destruct (list_choice D (fun r Dr Lr => Forall2 (fun t l => exists l0, Ans r t.2.1 l0 /\ l ≡ₚ l0) Dr Lr /\
    outs !! r = Some (map Some (concat Lr)) /\ offs !! r = Some (0 :: run_offsets 0 (length <$> Lr)))) as (L&HLL&HL).
  { intros r Dr HDr. pose proof (lookup_lt_Some _ _ _ HDr) as Hr.
    destruct (lookup_lt_is_Some_2 outs r) as [out Hout]; [lia|]. destruct (lookup_lt_is_Some_2 offs r) as [off Hoff]; [lia|].
    destruct (Hans r (map (fun t => t.2.1) Dr) out off) as (R&HR&HC).
    { change (map ?f ?l) with (f <$> l) at 1. by rewrite list_lookup_fmap, HDr. } { done. } { done. }
    destruct HC as [HO (Lr&HLr&->)]. apply IsOffsets_run in HO. subst off.
    exists Lr. split; [|split; [done|]].
    - apply (Forall2_fmap_l (fun t : nat * nat * (Q * nat) => t.2.1)) in HR. clear -HR HLr. revert Lr HLr.
      induction HR as [|t l0 Dr R HA HR IH]; intros Lr HLr; inversion HLr; subst; constructor; [by exists l0|by apply IH].
    - rewrite Hoff. do 3 f_equal. clear -HLr. induction HLr as [|a b Lr R H HF IH]; csimpl; [done|]. by rewrite IH, (Permutation_length H). }
  assert (outs = map (map Some) (map (@concat B) L)) as Eouts.
  { apply list_eq. intros r. change (map ?f ?l) with (f <$> l). rewrite !list_lookup_fmap.
    destruct (D !! r) as [Dr|] eqn:EDr.
    - destruct (lookup_lt_is_Some_2 L r) as [Lr HLr]; [rewrite HLL; by eapply lookup_lt_Some|].
      destruct (HL r Dr Lr EDr HLr) as (_&->&_). by rewrite HLr.
    - apply lookup_ge_None in EDr. rewrite !lookup_ge_None_2; [done|lia..]. }
  assert (offs = map (fun sz => 0 :: run_offsets 0 sz) (map (fun Lr : list (list B) => length <$> Lr) L)) as Eoffs.
  { apply list_eq. intros r. change (map ?f ?l) with (f <$> l). rewrite !list_lookup_fmap.
    destruct (D !! r) as [Dr|] eqn:EDr.
    - destruct (lookup_lt_is_Some_2 L r) as [Lr HLr]; [rewrite HLL; by eapply lookup_lt_Some|].
      destruct (HL r Dr Lr EDr HLr) as (_&_&->). by rewrite HLr.
    - apply lookup_ge_None in EDr. rewrite !lookup_ge_None_2; [done|lia..]. }
  assert (Forall2 (fun Dr Lr => length Dr = length Lr) D L) as HDL.
  { apply Forall2_same_length_lookup. split; [congruence|]. intros r Dr Lr HDr HLr. destruct (HL r Dr Lr HDr HLr) as (H&_&_). by eapply Forall2_length. }
  subst outs offs.
  (* back *)
  set (Bk := zip_with back D L).
  assert (length Bk = P) as HBk by (unfold Bk; rewrite zip_with_length; lia).
  set (szs := map (fun Lr : list (list B) => length <$> Lr) L).
  assert (zip_with per_item (map (map (fun t => t.1.1)) D) szs = map (map (fun x => x.1.1)) Bk) as BS.
  { unfold Bk, szs. clear -HDL. induction HDL as [|Dr Lr D L H HF IH]; [done|]. simpl. rewrite IH. f_equal. symmetry. by apply back_s. }
  assert (zip_with per_item (map (map (fun t => t.1.2)) D) szs = map (map (fun x => x.1.2)) Bk) as BJ.
  { unfold Bk, szs. clear -HDL. induction HDL as [|Dr Lr D L H HF IH]; [done|]. simpl. rewrite IH. f_equal. symmetry. by apply back_j. }
  assert (map (@concat B) L = map (map snd) Bk) as BV.
  { unfold Bk. clear -HDL. induction HDL as [|Dr Lr D L H HF IH]; [done|]. simpl. rewrite IH. f_equal. symmetry. by apply back_v. }
  assert (forall x, x ∈ concat Bk -> x.1.1 < P /\ exists t, t ∈ concat T /\ t.1 = x.1) as HBb.
  { intros x Hx. apply elem_of_list_In, in_concat in Hx as (b&Hb'&Hx). apply elem_of_list_In, elem_of_lookup_zip_with in Hb' as (r&Dr&Lr&->&HDr&HLr).
    unfold back in Hx. apply in_concat in Hx as (l&Hl&Hx). apply elem_of_list_In, elem_of_lookup_zip_with in Hl as (i&t&l0&->&Ht&_).
    apply in_map_iff in Hx as (v&<-&_). simpl.
    assert (t ∈ concat T) as HtT.
    { unfold D in HDr. change (map ?f ?l) with (f <$> l) in HDr. rewrite list_lookup_fmap in HDr. destruct (seq 0 P !! r); [|done]. injection HDr as <-.
      apply elem_of_list_lookup_2, list_filter_elem in Ht as [? _]. done. }
    split; [by apply HTb|]. by exists t. }
  exists (map (map (fun t => t.1.1)) D). split; [apply init_all|].
  exists (map (map (fun t => t.1.2)) D). split; [apply init_all|].
  rewrite map_length.
  assert (exists bplans, mapM (fun r => rk ← map (map (fun t => t.1.1)) D !! r; off ← map (fun sz => 0 :: run_offsets 0 sz) szs !! r; createFromSends_batched rk off) (seq 0 (length D)) = Some bplans /\
    Forall2 PlanOK (map (map (fun x => x.1.1)) Bk) bplans) as (bplans&->&HBP).
  { rewrite <- BS.
    destruct (batched_plans (map (map (fun t => t.1.1)) D) szs) as (bplans&HE&HB); [|by exists bplans; rewrite map_length in HE].
    apply Forall2_same_length_lookup. unfold szs. split; [rewrite !map_length; congruence|].
    intros r rk sz Hrk Hsz. change (map ?f ?l) with (f <$> l) in Hrk, Hsz. rewrite list_lookup_fmap in Hrk. rewrite list_lookup_fmap in Hsz.
    destruct (D !! r) as [Dr|] eqn:HDr; [|done]. destruct (L !! r) as [Lr|] eqn:HLr; [|done]. simpl in Hrk, Hsz. injection Hrk as <-. injection Hsz as <-. split.
    - apply sorted_grouped. unfold D in HDr. change (map ?f ?l) with (f <$> l) in HDr. rewrite list_lookup_fmap in HDr.
      destruct (seq 0 P !! r); [|done]. simpl in HDr. injection HDr as <-. apply sorted_map_le, SS_filter, all_tasks_sorted.
    - rewrite fmap_length, map_length. symmetry. by apply (Forall2_lookup_lr _ _ _ _ _ _ HDL HDr HLr). }
  apply (WithPlan_ok (map (map (fun x => x.1.1)) Bk)); [done| |].
  { intros ds d Hds Hd. rewrite map_length, HBk. apply elem_of_list_In, in_map_iff in Hds as (b&<-&Hb').
    apply elem_of_list_In, in_map_iff in Hd as (x&<-&Hx). apply HBb. apply elem_of_list_In, in_concat. by exists b. }
  intros bpl HBF.
  rewrite own_rank_eq. eapply ExchangeAll_ok; [done| |].
  { apply Forall2_same_length_lookup. unfold szs. split; [rewrite imap_length, !map_length; congruence|].
    intros r rk sz Hrk Hsz. rewrite list_lookup_imap in Hsz. change (map ?f ?l) with (f <$> l) in Hrk, Hsz. rewrite list_lookup_fmap in Hsz. rewrite list_lookup_fmap in Hrk.
    unfold Bk in Hrk. rewrite lookup_zip_with in Hrk. 
    destruct (D !! r) as [Dr|] eqn:HDr; [|done]. destruct (L !! r) as [Lr|] eqn:HLr; [|done]. simpl in Hrk, Hsz. injection Hrk as <-. injection Hsz as <-.
    rewrite replicate_length, fmap_length.
    pose proof (Forall2_lookup_lr _ _ _ _ _ _ HDL HDr HLr) as Hl. simpl in Hl.
    rewrite <- (map_length snd (back Dr Lr)), back_v by done. by rewrite <- length_concat. }
  apply FillAll_ok.
  { apply Forall2_same_length_lookup. unfold szs. split; [rewrite !map_length; congruence|].
    intros r rk sz Hrk Hsz. change (map ?f ?l) with (f <$> l) in Hrk, Hsz. rewrite list_lookup_fmap in Hrk. rewrite list_lookup_fmap in Hsz.
    destruct (D !! r) as [Dr|] eqn:HDr; [|done]. destruct (L !! r) as [Lr|] eqn:HLr; [|done]. simpl in Hrk, Hsz. injection Hrk as <-. injection Hsz as <-.
    rewrite !fmap_length. by apply (Forall2_lookup_lr _ _ _ _ _ _ HDL HDr HLr). }
  rewrite BJ. eapply (ExchangeAll_self (fun x => x.1.1)); [done|].
  rewrite BV. eapply (ExchangeAll_self (fun x => x.1.1)); [done|].
  rewrite HBk. split; [by rewrite map_length, seq_length|]. split; [by rewrite map_length, seq_length|].
  intros s p ids vals Hp Hids Hvals. pose proof (lookup_lt_Some _ _ _ Hp) as Hs. fold P in Hs.
  change (map ?f (seq 0 P)) with (f <$> seq 0 P) in Hids, Hvals. rewrite list_lookup_fmap, lookup_seq_lt in Hids by done. rewrite list_lookup_fmap, lookup_seq_lt in Hvals by done.
  simpl in Hids, Hvals. injection Hids as <-. injection Hvals as <-. split; [by rewrite !map_length|].
  set (items := map (fun x : nat * nat * B => (x.1.2, x.2)) (List.filter (fun x => x.1.1 =? s) (concat Bk))).
  replace (map (fun x => x.1.2) (List.filter (fun x => x.1.1 =? s) (concat Bk))) with (map fst items) by (unfold items; by rewrite map_map).
  replace (map snd (List.filter (fun x => x.1.1 =? s) (concat Bk))) with (map snd items) by (unfold items; by rewrite map_map).
  destruct (Forall2_lookup_l _ _ _ _ _ HF Hp) as (ts&Hts&Hlp).
  apply MergeResults_ok.
  { intros x Hx. unfold items in Hx. apply elem_of_list_In, in_map_iff in Hx as (y&<-&Hy). apply elem_of_list_In, list_filter_elem in Hy as [Hy Hys].
    apply Nat.eqb_eq in Hys. destruct (HBb y Hy) as (_&t&Ht&Et). destruct (all_tasks_elem preds 0 TS t HF Ht) as (i&p'&ts'&rs&H1&H2&H3&H4&_).
    simpl. rewrite Et in H3, H4. rewrite Hys in H3. simpl in H3. subst i. assert (p' = p) as -> by congruence. by eapply lookup_lt_Some. }
  intros vals off HC.
  (* the rows *)
  set (LL := concat (zip_with zip D L)).
  assert (concat Bk = concat (map (fun tl => map (fun v => (tl.1.1, v)) tl.2) LL)) as EB.
  { unfold Bk, LL. clear. revert L. induction D as [|Dr D' IH]; intros [|Lr L]; try done. simpl. rewrite map_app, concat_app, IH. by rewrite back_zip. }
  assert (map fst LL = concat D) as EF.
  { unfold LL. clear -HDL. induction HDL as [|Dr Lr D L H HF IH]; [done|]. simpl. rewrite map_app, IH. f_equal.
    change (map fst ?l) with (l.*1). apply fst_zip. lia. }
  destruct (perm_lift LL (concat T)) as (LL'&HLP&EF').
  { rewrite EF. unfold D. apply (classes_perm (fun t => t.2.2) P). intros t Ht. by apply HTb. }
  assert (forall t l, (t, l) ∈ LL' -> exists l0, Ans t.2.2 t.2.1 l0 /\ l ≡ₚ l0) as HAns.
  { intros t l Htl. rewrite HLP in Htl. unfold LL in Htl. apply elem_of_list_In, in_concat in Htl as (z&Hz&Htl).
    apply elem_of_list_In, elem_of_lookup_zip_with in Hz as (r&Dr&Lr&->&HDr&HLr).
    apply elem_of_list_In, elem_of_lookup_zip_with in Htl as (i&t'&l'&Eq&Ht&Hl). injection Eq as <- <-.
    destruct (HL r Dr Lr HDr HLr) as (HFr&_&_). destruct (Forall2_lookup_lr _ _ _ _ _ _ HFr Ht Hl) as (l0&HA&HP').
    exists l0. split; [|done]. unfold D in HDr. change (map ?f ?l) with (f <$> l) in HDr. rewrite list_lookup_fmap in HDr.
    destruct (seq 0 P !! r) eqn:Er; [|done]. apply lookup_seq in Er as [-> _]. simpl in HDr. injection HDr as <-.
    apply elem_of_list_lookup_2, list_filter_elem in Ht as [_ Ht]. apply Nat.eqb_eq in Ht. by rewrite Ht. }
  assert (forall j q rs, p !! j = Some q -> ts !! j = Some rs -> exists ls, Forall2 (fun r l => Ans r q l) rs ls /\
    map snd (List.filter (fun x => x.1 =? j) items) ≡ₚ concat ls) as Hrow.
  { intros j q rs Hq Hrs.
    set (key := fun x : nat * nat => (x.1 =? s) && (x.2 =? j)).
    assert (map snd (List.filter (fun x => x.1 =? j) items) = map snd (List.filter (fun x => key x.1) (concat Bk))) as ->.
    { unfold items, key. rewrite list_filter_map, map_map. simpl. rewrite filter_filter. f_equal. apply filter_ext_l. intros x _. simpl. apply andb_comm. }
    rewrite EB, back_filter.
    pose proof (all_tasks_key preds 0 TS s j p ts q rs Hp Hts Hq Hrs) as HK. simpl in HK. fold T in HK.
    assert (map fst (List.filter (fun tl => key tl.1.1) LL') = map (fun r => ((s, j), (q, r))) rs) as HK'.
    { rewrite <- HK, <- EF'. rewrite list_filter_map. done. }
    assert (exists ls, Forall2 (fun r l => Ans r q l) rs ls /\ concat (map snd (List.filter (fun tl => key tl.1.1) LL')) ≡ₚ concat ls) as (ls&HLs&HPs).
    { assert (forall z, z ∈ List.filter (fun tl => key tl.1.1) LL' -> exists l0, Ans z.1.2.2 z.1.2.1 l0 /\ z.2 ≡ₚ l0) as HZ.
      { intros [t l] Hz. apply list_filter_elem in Hz as [Hz _]. by apply HAns. }
      revert HZ HK'. clear. generalize (List.filter (fun tl : nat * nat * (Q * nat) * list B => key tl.1.1) LL') as z. revert rs.
      induction rs as [|r rs IH]; intros [|[t l] z] HZ HK; simpl in HK; try done.
      - by exists [].
      - injection HK as -> HK. destruct (HZ ((s, j, (q, r)), l) ltac:(left)) as (l0&HA&HP'). simpl in HA, HP'.
        destruct (IH z) as (ls&H1&H2); [intros; apply HZ; by right|done|].
        exists (l0 :: ls). split; [by constructor|]. simpl. by rewrite HP', H2. }
    exists ls. split; [done|]. rewrite <- HPs.
    assert (map snd (concat (map (fun tl : nat * nat * (Q * nat) * list B => map (fun v => (tl.1.1, v)) tl.2) (List.filter (fun tl => key tl.1.1) LL))) =
      concat (map snd (List.filter (fun tl => key tl.1.1) LL))) as ->.
    { clear. induction (List.filter (fun tl : nat * nat * (Q * nat) * list B => key tl.1.1) LL) as [|[t l] z IH]; [done|]. simpl. rewrite map_app, map_map, IH. simpl. by rewrite map_id. }
    apply concat_perm, Permutation_map, list_filter_perm. by symmetry. }
  destruct (list_choice (zip p ts) (fun j '(q, rs) row => (exists ls, Forall2 (fun r l => Ans r q l) rs ls /\ row = concat ls) /\
    map snd (List.filter (fun x => x.1 =? j) items) ≡ₚ row)) as (R&HRl&HR).
  { intros j [q rs] Hj. apply lookup_zip_with_Some in Hj as (q'&rs'&[= <- <-]&Hq&Hrs). destruct (Hrow j q rs Hq Hrs) as (ls&H1&H2).
    exists (concat ls). split; [by exists ls|done]. }
  rewrite zip_with_length in HRl.
  apply (Hpost s p ts vals off R Hp Hts).
  - apply Forall2_same_length_lookup. split; [rewrite zip_with_length; lia|]. intros j [q rs] row Hj Hrow'. by destruct (HR j (q, rs) row Hj Hrow').
  - eapply CrsAnswer_perm; [|exact HC]. apply Forall2_same_length_lookup. split; [rewrite map_length, seq_length; lia|].
    intros j l row Hl Hrow'. change (map ?f (seq 0 ?n)) with (f <$> seq 0 n) in Hl. rewrite list_lookup_fmap in Hl.
    destruct (seq 0 (length p) !! j) eqn:Ej; [|done]. apply lookup_seq in Ej as [-> Hj]. simpl in Hl. injection Hl as <-.
    destruct (lookup_lt_is_Some_2 (zip p ts) j) as [[q rs] Hz]; [rewrite zip_with_length; lia|]. by destruct (HR j (q, rs) row Hz Hrow').
Qed.
