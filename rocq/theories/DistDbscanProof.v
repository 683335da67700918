(** Proofs about the distributed DBSCAN: what every rank sends, gets back and emits. *)
From Verif Require Export MergeProof DistDbscanSpec CrsProof.
From Verif Require Import PropertiesKernelAlg.
Local Open Scope nat_scope.

(** ** One point *)
Lemma foldl_min_le gs : forall g, (foldl Z.min g gs <= g)%Z /\ (forall x, x ∈ gs -> (foldl Z.min g gs <= x)%Z) /\ (foldl Z.min g gs = g \/ foldl Z.min g gs ∈ gs).
Proof.
  induction gs as [|h gs IH]; intros g; simpl; [split; [done|]; split; [intros x H; by apply elem_of_nil in H|by left]|].
  destruct (IH (Z.min g h)) as (H1 & H2 & H3). split; [lia|]. split.
  - intros x Hx. apply elem_of_cons in Hx as [->|Hx]; [lia|by apply H2].
  - destruct H3 as [H3|H3]; [|right; by right]. destruct (Z.min_spec g h) as [[_ E]|[_ E]]; rewrite E in *; [left|right; rewrite H3; left]; done.
Qed.
Lemma merge_point_none c l : merge_point c l [] = (None, []).
Proof. unfold merge_point. destruct (negb (l =? -1)%Z); done. Qed.
(** A core point: every label but the smallest is linked to the smallest, and the point takes the smallest. *)
Lemma merge_point_core l gs : l <> (-1)%Z -> gs <> [] -> exists mn,
  (mn = l \/ mn ∈ gs) /\ (mn <= l)%Z /\ (forall g, g ∈ gs -> (mn <= g)%Z) /\
  default l (fst (merge_point true l gs)) = mn /\
  forall f t, (f, t) ∈ snd (merge_point true l gs) <-> t = mn /\ f <> mn /\ (f = l \/ f ∈ gs).
Proof.
  intros Hl Hgs. unfold merge_point. destruct (Z.eqb_spec l (-1)); [done|]. cbn [negb]. destruct gs as [|g gs]; [done|].
  cbn [length]. destruct (Nat.ltb_spec (S (length gs) + 1) 2); [lia|]. cbn [negb andb].
  set (mn := Z.min (foldl Z.min g gs) l). destruct (foldl_min_le gs g) as (H1 & H2 & H3).
  exists mn. split; [|split; [lia|split]].
  - destruct (Z.min_spec (foldl Z.min g gs) l) as [[_ E]|[_ E]]; unfold mn; rewrite E; [|by left]. right.
    destruct H3 as [->|H3]; [left|by right].
  - intros x Hx. apply elem_of_cons in Hx as [->|Hx]; [lia|]. specialize (H2 x Hx). lia.
  - split; [destruct (Z.eqb_spec l mn); simpl; done|]. intros f t. cbn [snd]. rewrite elem_of_app, elem_of_list_fmap.
    split.
    + intros [Hin|(x & [= -> ->] & Hx)].
      * destruct (Z.eqb_spec l mn); cbn [negb] in Hin; [by apply elem_of_nil in Hin|]. apply elem_of_list_singleton in Hin as [= -> ->]. auto.
      * apply elem_of_list_In, filter_In in Hx as [Hx Hn]. apply negb_true_iff, Z.eqb_neq in Hn. apply elem_of_list_In in Hx. auto.
    + intros (-> & Hn & [->|Hf]).
      * left. destruct (Z.eqb_spec l mn); [done|]. cbn [negb]. by apply elem_of_list_singleton.
      * right. exists f. split; [done|]. apply elem_of_list_In, filter_In. split; [by apply elem_of_list_In|]. apply negb_true_iff. by apply Z.eqb_neq.
Qed.
Lemma merge_point_border l gs : l <> (-1)%Z -> merge_point false l gs = (None, []).
Proof. intros H. unfold merge_point. destruct (Z.eqb_spec l (-1)); [done|]. cbn [negb]. destruct (_ <? 2); done. Qed.
Lemma filter_length_le {A} (f : A -> bool) (l : list A) : length (List.filter f l) <= length l.
Proof. induction l; simpl; [done|]. destruct (f a); simpl; lia. Qed.
Lemma filter_length_lt {A} (f : A -> bool) (l : list A) x : x ∈ l -> f x = false -> length (List.filter f l) < length l.
Proof.
  intros Hx Hf. induction l as [|y l IH]; [by apply elem_of_nil in Hx|]. simpl. apply elem_of_cons in Hx as [<-|Hx].
  - rewrite Hf. pose proof (filter_length_le f l). lia.
  - specialize (IH Hx). destruct (f y); simpl; lia.
Qed.
Lemma merge_point_len c l gs : length (snd (merge_point c l gs)) <= length gs.
Proof.
  destruct gs as [|g gs]; [by rewrite merge_point_none|].
  unfold merge_point. destruct (_ <? 2); [simpl; lia|]. destruct c; cbn [negb]; [|simpl; lia].
  cbn [snd]. rewrite app_length, fmap_length. destruct (foldl_min_le gs g) as (H1 & H2 & H3).
  destruct (Z.eqb_spec l (-1)) as [Hl|Hl]; cbn [negb andb]; [pose proof (filter_length_le (fun l0 => negb (l0 =? foldl Z.min g gs)%Z) (g :: gs)); simpl; simpl in *; lia|].
  set (mn := Z.min (foldl Z.min g gs) l). destruct (Z.eqb_spec l mn) as [E|E]; cbn [negb].
  - pose proof (filter_length_le (fun l0 => negb (l0 =? mn)%Z) (g :: gs)). cbn [length app] in *. lia.
  - assert (mn ∈ g :: gs) as Hin.
    { assert (mn = foldl Z.min g gs) as -> by lia. destruct H3 as [->|H3]; [left|by right]. }
    pose proof (filter_length_lt (fun l0 => negb (l0 =? mn)%Z) (g :: gs) mn Hin ltac:(cbn beta; by rewrite Z.eqb_refl)).
    cbn [length app] in *. lia.
Qed.

(** ** All points of a rank *)
Section runs.
Context (is_core : nat -> bool) (labels : list Z) (srt : list (nat * Z)).
Context (Hsorted : forall i j x y, i <= j -> srt !! i = Some x -> srt !! j = Some y -> fst x <= fst y).
Context (Hids : forall id l, (id, l) ∈ srt -> id < length labels).
Definition grp (id : nat) : list Z := snd <$> List.filter (fun x => fst x =? id) srt.
Lemma grp_elem id l : l ∈ grp id <-> (id, l) ∈ srt.
Proof.
  unfold grp. rewrite elem_of_list_fmap. split.
  - intros ([a b] & -> & H). apply elem_of_list_In, filter_In in H as [H1 H2]. apply Nat.eqb_eq in H2. simpl in *. subst. by apply elem_of_list_In.
  - intros H. exists (id, l). split; [done|]. apply elem_of_list_In, filter_In. split; [by apply elem_of_list_In|]. apply Nat.eqb_refl.
Qed.
Lemma filter_all {A} (f : A -> bool) (l : list A) : (forall x, x ∈ l -> f x = true) -> List.filter f l = l.
Proof. intros H. induction l as [|x l IH]; simpl; [done|]. rewrite H by left. f_equal. apply IH. intros; apply H. by right. Qed.
Lemma filter_none {A} (f : A -> bool) (l : list A) : (forall x, x ∈ l -> f x = false) -> List.filter f l = [].
Proof. intros H. induction l as [|x l IH]; simpl; [done|]. rewrite H by left. apply IH. intros; apply H. by right. Qed.
(** A maximal run of equal ids holds all labels of that id. *)
Lemma run_grp a b id : a < b <= length srt -> (forall i x, a <= i < b -> srt !! i = Some x -> fst x = id) ->
  (forall x, b < length srt -> srt !! b = Some x -> fst x <> id) -> (forall x, 0 < a -> srt !! (a - 1) = Some x -> fst x <> id) ->
  take (b - a) (drop a (snd <$> srt)) = grp id.
Proof.
  intros Hab Hin Hb Ha. unfold grp.
  assert (srt = take a srt ++ take (b - a) (drop a srt) ++ drop b srt) as Hsplit.
  { rewrite <- (take_drop a srt) at 1. f_equal. rewrite <- (take_drop (b - a) (drop a srt)) at 1. f_equal. rewrite drop_drop. f_equal. lia. }
  destruct (lookup_lt_is_Some_2 srt a) as [xa Exa]; [lia|]. pose proof (Hin a xa ltac:(lia) Exa) as Hxa.
  rewrite Hsplit at 2. rewrite !List.filter_app. rewrite (filter_none _ (take a srt)), (filter_all _ (take (b - a) (drop a srt))), (filter_none _ (drop b srt)).
  - rewrite app_nil_r. simpl. rewrite fmap_take, fmap_drop. done.
  - intros x Hx. apply Nat.eqb_neq. apply elem_of_list_lookup in Hx as [i Hi]. rewrite lookup_drop in Hi.
    pose proof (lookup_lt_Some _ _ _ Hi). destruct (lookup_lt_is_Some_2 srt b) as [xb Exb]; [lia|].
    pose proof (Hb xb ltac:(lia) Exb). pose proof (Hsorted a b _ _ ltac:(lia) Exa Exb). pose proof (Hsorted b (b + i) _ _ ltac:(lia) Exb Hi). lia.
  - intros x Hx. apply Nat.eqb_eq. apply elem_of_list_lookup in Hx as [i Hi]. pose proof (lookup_lt_Some _ _ _ Hi) as Hl.
    rewrite take_length, drop_length in Hl. rewrite lookup_take, lookup_drop in Hi by lia. apply (Hin (a + i)); [lia|done].
  - intros x Hx. apply Nat.eqb_neq. apply elem_of_list_lookup in Hx as [i Hi]. pose proof (lookup_lt_Some _ _ _ Hi) as Hl.
    rewrite take_length in Hl. rewrite lookup_take in Hi by lia. destruct (lookup_lt_is_Some_2 srt (a - 1)) as [xb Exb]; [lia|].
    pose proof (Ha xb ltac:(lia) Exb). pose proof (Hsorted i (a - 1) _ _ ltac:(lia) Hi Exb). pose proof (Hsorted (a - 1) a _ _ ltac:(lia) Exb Exa). lia.
Qed.

Definition mp (id : nat) (l : Z) : option Z * list (Z * Z) := merge_point (is_core id) l (grp id).
Record MInv (a : nat) (st : list Z * list (Z * Z)) : Prop := {
  mi_len : length (fst st) = length labels;
  mi_lab : forall id l, labels !! id = Some l ->
     fst st !! id = Some (if decide (id ∈ fst <$> take a srt) then default l (fst (mp id l)) else l);
  mi_raw : forall p, p ∈ snd st <-> exists id l, id ∈ fst <$> take a srt /\ labels !! id = Some l /\ p ∈ snd (mp id l);
  mi_size : length (snd st) <= a }.

Lemma MInv_step offs k a b st : offs !! k = Some a -> offs !! S k = Some b -> a < b <= length srt ->
  (forall i x y, a <= i < b -> srt !! a = Some x -> srt !! i = Some y -> fst x = fst y) ->
  (forall x y, b < length srt -> srt !! (b - 1) = Some x -> srt !! b = Some y -> fst x <> fst y) ->
  (forall x y, 0 < a -> srt !! (a - 1) = Some x -> srt !! a = Some y -> fst x <> fst y) ->
  MInv a st -> exists st', merge_step is_core offs (fst <$> srt) (snd <$> srt) st k = Some st' /\ MInv b st'.
Proof.
  intros Ha Hb Hab Hrun Hend Hbeg I. unfold merge_step. rewrite Ha, Hb. cbn [mbind option_bind].
  destruct (lookup_lt_is_Some_2 srt a) as [[id gl] Ea]; [lia|]. rewrite list_lookup_fmap, Ea. cbn [fmap option_fmap option_map mbind option_bind fst].
  assert (id < length labels) as Hid by (eapply Hids; by eapply elem_of_list_lookup_2).
  destruct (lookup_lt_is_Some_2 labels id Hid) as [l El].
  assert (take (b - a) (drop a (snd <$> srt)) = grp id) as Hgrp.
  { apply run_grp; [done| | |].
    - intros i x Hi Hx. symmetry. apply (Hrun i (id, gl) x Hi Ea Hx).
    - intros x Hlt Hx Heq. destruct (lookup_lt_is_Some_2 srt (b - 1)) as [y Ey]; [lia|].
      apply (Hend y x Hlt Ey Hx). rewrite Heq. symmetry. apply (Hrun (b - 1) (id, gl) y ltac:(lia) Ea Ey).
    - intros x Hlt Hx Heq. apply (Hbeg x (id, gl) Hlt Hx Ea). done. }
  assert (id ∉ fst <$> take a srt) as Hnew.
  { rewrite elem_of_list_fmap. intros (x & Hx & Hin). apply elem_of_list_lookup in Hin as [i Hi].
    pose proof (lookup_lt_Some _ _ _ Hi) as Hl. rewrite take_length in Hl. rewrite lookup_take in Hi by lia.
    destruct (lookup_lt_is_Some_2 srt (a - 1)) as [y Ey]; [lia|].
    pose proof (Hsorted i (a - 1) _ _ ltac:(lia) Hi Ey). pose proof (Hsorted (a - 1) a _ _ ltac:(lia) Ey Ea).
    apply (Hbeg y (id, gl) ltac:(lia) Ey Ea). simpl in *. lia. }
  assert (forall id', id' ∈ fst <$> take b srt <-> id' = id \/ id' ∈ fst <$> take a srt) as Hmem.
  { intros id'. replace b with (a + (b - a)) by lia. rewrite <- take_take_drop, fmap_app, elem_of_app.
    assert (id' ∈ fst <$> take (b - a) (drop a srt) <-> id' = id) as ->; [|tauto]. rewrite elem_of_list_fmap. split.
    - intros (x & -> & Hin). apply elem_of_list_lookup in Hin as [i Hi]. pose proof (lookup_lt_Some _ _ _ Hi) as Hl.
      rewrite take_length, drop_length in Hl. rewrite lookup_take, lookup_drop in Hi by lia. symmetry. apply (Hrun (a + i) (id, gl) x ltac:(lia) Ea Hi).
    - intros ->. exists (id, gl). split; [done|]. apply elem_of_list_lookup. exists 0. rewrite lookup_take, lookup_drop, Nat.add_0_r by lia. done. }
  rewrite (mi_lab _ _ I id l El), decide_False by done. cbn [mbind option_bind]. rewrite Hgrp. fold (mp id l).
  destruct (mp id l) as [upd pairs] eqn:Emp.
  assert (length pairs <= b - a) as Hplen.
  { pose proof (merge_point_len (is_core id) l (grp id)) as Hml. fold (mp id l) in Hml. rewrite Emp in Hml. cbn [snd] in Hml.
    rewrite <- Hgrp, take_length, drop_length in Hml. lia. }
  assert (exists labs', match upd with Some v => wr (fst st) id v | None => Some (fst st) end = Some labs' /\ labs' = <[id := default l upd]> (fst st)) as (labs' & -> & Hl').
  { destruct upd as [v|].
    - rewrite wr_Some by (rewrite (mi_len _ _ I); lia). eauto.
    - eexists. split; [done|]. simpl. symmetry. apply list_insert_id. rewrite (mi_lab _ _ I id l El), decide_False by done. done. }
  cbn [mbind option_bind]. eexists. split; [done|]. constructor; cbn [fst snd].
  - rewrite Hl', insert_length. apply I.
  - intros id' l0 E0. rewrite Hl'. destruct (decide (id' = id)) as [->|Hne].
    + rewrite list_lookup_insert by (rewrite (mi_len _ _ I); lia). rewrite El in E0. injection E0 as <-.
      rewrite decide_True by (apply Hmem; by left). by rewrite Emp.
    + rewrite list_lookup_insert_ne by done. rewrite (mi_lab _ _ I id' l0 E0). f_equal.
      destruct (decide (id' ∈ fst <$> take a srt)); [rewrite decide_True by (apply Hmem; by right)|rewrite decide_False by (rewrite Hmem; tauto)]; done.
  - intros p. rewrite elem_of_app, (mi_raw _ _ I). split.
    + intros [(id' & l0 & H1 & H2 & H3)|Hin].
      * exists id', l0. split; [apply Hmem; by right|done].
      * exists id, l. split; [apply Hmem; by left|]. split; [done|]. by rewrite Emp.
    + intros (id' & l0 & H1 & H2 & H3). apply Hmem in H1 as [->|H1]; [right|left; eauto].
      rewrite El in H2. injection H2 as <-. by rewrite Emp in H3.
  - rewrite app_length. pose proof (mi_size _ _ I). lia.
Qed.

Lemma step5_srt : let ids := fst <$> srt in
  exists offs, computeOffsetsInOrderedView Nat.eqb (seq 0 (S (length ids))) ids (replicate (S (length ids)) 0) = Some offs /\
  exists st, (if 1 <? length offs then computeMergePairs is_core labels offs ids (snd <$> srt) else Some (labels, [])) = Some st /\
    MInv (length srt) st.
Proof.
  intros ids. destruct (C20_run_offsets Nat.eqb Nat.eqb_eq (seq 0 (S (length ids))) ids (replicate (S (length ids)) 0)) as
    (offs & Hoffs & Hlen & H0 & Hlast & Hmono & Hsame & Hdiff); [done|apply replicate_length|].
  exists offs. split; [done|]. assert (length ids = length srt) as Hli by (unfold ids; apply fmap_length).
  assert (MInv 0 (labels, [])) as I0.
  { constructor; cbn [fst snd]; [done| | |done].
    - intros id l E. rewrite decide_False; [done|]. rewrite take_0. apply not_elem_of_nil.
    - intros p. split; [intros H; by apply elem_of_nil in H|]. intros (id & l & H & _). rewrite take_0 in H. by apply elem_of_nil in H. }
  assert (forall k a, offs !! k = Some a -> a <= length ids) as Hle.
  { intros k a Ek. assert (forall d k a, k + d = length offs - 1 -> offs !! k = Some a -> a <= length ids) as HH.
    { induction d as [|d IH]; intros k' a' Hk' E'.
      - rewrite Nat.add_0_r in Hk'. subst k'. rewrite Hlast in E'. injection E'. lia.
      - destruct (lookup_lt_is_Some_2 offs (S k')) as [b Eb]; [lia|]. pose proof (IH (S k') b ltac:(lia) Eb). pose proof (Hmono _ _ _ E' Eb). lia. }
    apply (HH (length offs - 1 - k) k a); [apply lookup_lt_Some in Ek; lia|done]. }
  destruct (Nat.ltb_spec 1 (length offs)) as [Hn|Hn].
  - assert (forall n, n < length offs -> exists st a, offs !! n = Some a /\
      foldl (fun acc i => st ← acc; merge_step is_core offs ids (snd <$> srt) st i) (Some (labels, [])) (seq 0 n) = Some st /\ MInv a st) as Hfold.
    { induction n as [|n IH]; intros Hnl; [exists (labels, []), 0; done|].
      destruct (IH ltac:(lia)) as (st & a & Ea & Hf & I). destruct (lookup_lt_is_Some_2 offs (S n) Hnl) as [b Eb].
      assert (forall i x, srt !! i = Some x -> ids !! i = Some (fst x)) as Hlk by (intros i x Hx; unfold ids; by rewrite list_lookup_fmap, Hx).
      destruct (MInv_step offs n a b st Ea Eb) as (st' & Hst' & I'); try done.
      - split; [by eapply Hmono|]. rewrite <- Hli. by eapply Hle.
      - intros i x y Hi Hx Hy. by apply (Hsame n a b i _ _ Ea Eb Hi); apply Hlk.
      - intros x y Hlt Hx Hy. apply (Hdiff n b); try done; [lia|by apply Hlk|by apply Hlk].
      - intros x y Hlt Hx Hy. destruct n as [|n]; [rewrite H0 in Ea; injection Ea; lia|].
        apply (Hdiff n a); try done; [pose proof (Hle _ _ Ea); apply lookup_lt_Some in Hy; lia|by apply Hlk|by apply Hlk].
      - exists st', b. split; [done|]. split; [|done]. rewrite seq_S, foldl_app, Hf. exact Hst'. }
    destruct (Hfold (length offs - 1) ltac:(lia)) as (st & a & Ea & Hf & I). rewrite Hlast in Ea. injection Ea as <-.
    unfold computeMergePairs. fold ids. rewrite Hf. cbn [mbind option_bind].
    pose proof (mi_size _ _ I). rewrite fmap_length. destruct (Nat.leb_spec (length (snd st)) (length srt)); [|lia].
    exists st. split; [done|]. by rewrite <- Hli.
  - assert (length offs = 1) as Hl1 by lia. rewrite Hl1 in Hlast. simpl in Hlast. rewrite H0 in Hlast. injection Hlast as Hz.
    exists (labels, []). split; [done|]. rewrite <- Hli, <- Hz. done.
Qed.
End runs.

(** What a rank does with the labels it gets back. *)
Lemma step5_ok srt is_core labels recv :
  (forall l, srt l ≡ₚ l) -> (forall l i j x y, i <= j -> srt l !! i = Some x -> srt l !! j = Some y -> fst x <= fst y) ->
  (forall id l, (id, l) ∈ recv -> id < length labels) ->
  exists st g, step5 srt is_core labels recv = Some st /\ length (fst st) = length labels /\
    (forall id l, l ∈ g id <-> (id, l) ∈ recv) /\
    (forall id l, labels !! id = Some l -> fst st !! id = Some (default l (fst (merge_point (is_core id) l (g id))))) /\
    (forall p, p ∈ snd st <-> exists id l, labels !! id = Some l /\ p ∈ snd (merge_point (is_core id) l (g id))).
Proof.
  intros Hperm Hsrt Hids.
  destruct (step5_srt is_core labels (srt recv)) as (offs & Ho & st & Hst & I).
  - intros i j x y. apply Hsrt.
  - intros id l Hin. rewrite Hperm in Hin. by eapply Hids.
  - exists st, (grp (srt recv)). unfold step5. rewrite Ho. cbn [mbind option_bind]. split; [done|]. split; [apply I|].
    assert (forall id l, l ∈ grp (srt recv) id <-> (id, l) ∈ recv) as Hg by (intros; rewrite grp_elem, Hperm; done).
    split; [done|].
    assert (forall id, id ∉ fst <$> take (length (srt recv)) (srt recv) -> grp (srt recv) id = []) as Hno.
    { intros id Hn. rewrite take_ge in Hn by done. destruct (grp (srt recv) id) as [|l ls] eqn:E; [done|]. exfalso. apply Hn.
      assert (l ∈ grp (srt recv) id) as Hin by (rewrite E; left). apply grp_elem in Hin. apply elem_of_list_fmap. by exists (id, l). }
    split.
    + intros id l E. rewrite (mi_lab _ _ _ _ _ I id l E). case_decide as Hd; [done|]. rewrite (Hno id Hd), merge_point_none. done.
    + intros p. rewrite (mi_raw _ _ _ _ _ I). split; [intros (id & l & _ & H); eauto|]. intros (id & l & H1 & H2). exists id, l.
      split; [|done]. destruct (decide (id ∈ fst <$> take (length (srt recv)) (srt recv))); [done|].
      rewrite (Hno id) in H2 by done. rewrite merge_point_none in H2. by apply elem_of_nil in H2.
Qed.

(** ** Global indices *)
Lemma offsets_from_lookup (ns : list nat) : forall (acc : Z) r, r <= length ns ->
  offsets_from acc (Z.of_nat <$> ns) !! r = Some (acc + Z.of_nat (sum_list (take r ns)))%Z.
Proof.
  induction ns as [|n ns IH]; intros acc r Hr; simpl in Hr.
  - assert (r = 0) as -> by lia. simpl. f_equal. lia.
  - destruct r as [|r]; csimpl; [f_equal; lia|]. rewrite IH by lia. f_equal. lia.
Qed.
Lemma mapM_seq {B} (f : nat -> option B) (P : nat -> B -> Prop) n :
  (forall r, r < n -> exists x, f r = Some x /\ P r x) ->
  exists l, mapM f (seq 0 n) = Some l /\ length l = n /\ forall r x, l !! r = Some x -> f r = Some x /\ P r x.
Proof.
  intros H. assert (is_Some (mapM f (seq 0 n))) as [l Hl].
  { apply mapM_is_Some, Forall_forall. intros r Hr. apply elem_of_seq in Hr. destruct (H r) as (x & Hx & _); [lia|]. eauto. }
  exists l. split; [done|]. apply mapM_Some in Hl. pose proof (Forall2_length _ _ _ Hl) as Hlen. rewrite seq_length in Hlen.
  split; [done|]. intros r x Hx. pose proof (lookup_lt_Some _ _ _ Hx).
  destruct (Forall2_lookup_r _ _ _ _ _ Hl Hx) as (r' & Hr' & Hf). apply lookup_seq in Hr' as [-> _]. simpl in Hf.
  destruct (H r) as (x' & Hx' & HP); [lia|]. rewrite Hf in Hx'. injection Hx' as <-. done.
Qed.
Lemma filter_seq_length {A} (f : A -> bool) (u : list A) :
  length (List.filter (fun j => match u !! j with Some q => f q | None => false end) (seq 0 (length u))) = length (List.filter f u).
Proof.
  induction u as [|x u IH]; [done|]. cbn [length seq List.filter lookup list_lookup]. rewrite <- seq_shift.
  assert (forall l, length (List.filter (fun j => match (x :: u) !! j with Some q => f q | None => false end) (map S l)) =
    length (List.filter (fun j => match u !! j with Some q => f q | None => false end) l)) as HS.
  { induction l as [|j l IHl]; [done|]. simpl. destruct (u !! j) as [q|]; [destruct (f q)|]; simpl; rewrite ?IHl; done. }
  destruct (f x); simpl; rewrite HS, IH; done.
Qed.
Lemma NoDup_filter_b {A} (f : A -> bool) (l : list A) : NoDup l -> NoDup (List.filter f l).
Proof.
  induction 1 as [|x l Hx Hl IH]; simpl; [constructor|]. destruct (f x); [|done]. constructor; [|done].
  intros Hin. apply Hx. apply elem_of_list_In, filter_In in Hin as [Hin _]. by apply elem_of_list_In.
Qed.

Section pipeline.
Context (ns : list nat) (minpts : nat) (near : nat * nat -> nat * nat -> bool).
Local Notation point := (point ns).
Local Notation DCore := (DCore ns minpts near).
Local Notation DConn := (DConn ns minpts near).
Lemma all_points_iff p : p ∈ all_points ns <-> point p.
Proof.
  unfold all_points. rewrite elem_of_concat. split.
  - intros (l & Hl & Hp). apply elem_of_list_lookup in Hl as [r Hr]. rewrite list_lookup_imap in Hr.
    destruct (ns !! r) as [n|] eqn:En; [|done]. injection Hr as <-. apply elem_of_list_fmap in Hp as (i & -> & Hi).
    apply elem_of_seq in Hi. exists n. split; [done|]. simpl. lia.
  - destruct p as [r i]. intros (n & En & Hi). simpl in *. exists ((fun i => (r, i)) <$> seq 0 n). split.
    + apply elem_of_list_lookup. exists r. by rewrite list_lookup_imap, En.
    + apply elem_of_list_fmap. exists i. split; [done|]. apply elem_of_seq. lia.
Qed.
Lemma all_points_NoDup : NoDup (all_points ns).
Proof.
  unfold all_points. clear. assert (forall k, NoDup (concat (imap (fun r n => (fun i => (k + r, i)) <$> seq 0 n) ns)) /\
    forall p, p ∈ concat (imap (fun r n => (fun i => (k + r, i)) <$> seq 0 n) ns) -> k <= fst p) as H; [|apply (H 0)].
  induction ns as [|n l IH]; intros k; [split; [constructor|intros p Hp; by apply elem_of_nil in Hp]|].
  cbn [imap concat].
  assert (imap ((fun r n => (fun i => (k + r, i)) <$> seq 0 n) ∘ S) l = imap (fun r n => (fun i => (S k + r, i)) <$> seq 0 n) l) as ->.
  { apply imap_ext. intros r x _. simpl. apply list_fmap_ext. intros; f_equal; lia. }
  destruct (IH (S k)) as [IH1 IH2]. split.
  - apply NoDup_app. split; [|split; [|done]].
    + apply NoDup_fmap_2; [intros x y [=]; lia|apply NoDup_seq].
    + intros p Hp Hq. apply elem_of_list_fmap in Hp as (i & -> & _). specialize (IH2 _ Hq). simpl in IH2. lia.
  - intros p Hp. apply elem_of_app in Hp as [Hp|Hp]; [apply elem_of_list_fmap in Hp as (i & -> & _); simpl; lia|]. specialize (IH2 _ Hp). lia.
Qed.

Definition gid (p : nat * nat) : Z := Z.of_nat (sum_list (take (fst p) ns) + snd p).
Lemma gid_inj p q : point p -> point q -> gid p = gid q -> p = q.
Proof.
  intros (n & En & Hn) (m & Em & Hm) H. unfold gid in H. apply Nat2Z.inj in H. destruct p, q. simpl in *.
  destruct (layout_inj ns _ _ _ _ _ _ En Em Hn Hm H) as [-> ->]. done.
Qed.
Lemma gid_nonneg p : (0 <= gid p)%Z. Proof. apply Nat2Z.is_nonneg. Qed.
Lemma DCore_point p : DCore p -> point p. Proof. by intros [H _]. Qed.
Lemma dc_refl p : DConn p p. Proof. apply rst_refl. Qed.
Lemma dc_sym p q : DConn p q -> DConn q p. Proof. apply rst_sym. Qed.
Lemma dc_trans p q r : DConn p q -> DConn q r -> DConn p r. Proof. apply rst_trans. Qed.
Lemma dc_edge p q : DCore p -> DCore q -> near p q = true -> DConn p q. Proof. intros. apply rst_step. done. Qed.

(** [c] is a core point of a cluster near [p]. *)
Definition Lab (p c : nat * nat) : Prop := DCore c /\ exists q, DCore q /\ near p q = true /\ DConn q c.
Definition Lz (p : nat * nat) (z : Z) : Prop := exists c, gid c = z /\ Lab p c.
Lemma Lz_nonneg p z : Lz p z -> z <> (-1)%Z.
Proof. intros (c & <- & _). pose proof (gid_nonneg c). lia. Qed.

Context (Hmin : 2 <= minpts).
Context (Hrefl : forall p, near p p = true) (Hsym : forall p q, near p q = near q p).
Lemma Lab_core p c : DCore p -> Lab p c -> DConn p c.
Proof. intros Hp (Hc & q & Hq & Hn & HC). eapply dc_trans; [by apply dc_edge|done]. Qed.

(** ** One rank *)
Section rank.
Context (r n : nat) (ghosts : list (nat * nat)) (labels : list Z).
Context (Hn : ns !! r = Some n) (HG : EnoughGhosts ns minpts near r n ghosts) (HL : LocalDBSCAN minpts near r n ghosts labels).
Local Notation u := (unified r n ghosts).
Local Notation nin := (near_in near u).
Lemma u_point p : p ∈ u -> point p.
Proof.
  unfold unified. rewrite elem_of_app. intros [H|H]; [|by apply HG].
  apply elem_of_list_fmap in H as (i & -> & Hi). apply elem_of_seq in Hi. exists n. split; [done|]. simpl. lia.
Qed.
Lemma u_NoDup : NoDup u.
Proof.
  unfold unified. apply NoDup_app. split; [apply NoDup_fmap_2; [intros x y [=]; done|apply NoDup_seq]|]. split; [|apply HG].
  intros p Hp Hg. apply elem_of_list_fmap in Hp as (i & -> & _). apply HG in Hg as [_ Hg]. done.
Qed.
Lemma u_own i : i < n -> u !! i = Some (r, i).
Proof.
  intros Hi. unfold unified. rewrite lookup_app_l by (rewrite fmap_length, seq_length; done).
  rewrite list_lookup_fmap, lookup_seq_lt by done. done.
Qed.
Lemma u_ghost k : u !! (n + k) = ghosts !! k.
Proof.
  unfold unified. rewrite lookup_app_r by (rewrite fmap_length, seq_length; lia). rewrite fmap_length, seq_length. f_equal. lia.
Qed.
Lemma u_len : length u = n + length ghosts.
Proof. unfold unified. rewrite app_length, fmap_length, seq_length. done. Qed.
Lemma core_count i p : u !! i = Some p -> Core (length u) minpts nin i <-> minpts <= length (List.filter (near p) u).
Proof.
  intros E. unfold Core. assert (length (List.filter (nin i) (seq 0 (length u))) = length (List.filter (near p) u)) as ->.
  { rewrite <- (filter_seq_length (near p) u). f_equal. apply filter_ext. intros j. unfold near_in. by rewrite E. }
  apply lookup_lt_Some in E. tauto.
Qed.
Lemma count_le p : length (List.filter (near p) u) <= length (List.filter (near p) (all_points ns)).
Proof.
  apply submseteq_length, NoDup_submseteq; [apply NoDup_filter_b, u_NoDup|]. intros x Hx.
  apply elem_of_list_In, filter_In in Hx as [Hx Hf]. apply elem_of_list_In, filter_In. split; [|done].
  apply elem_of_list_In, all_points_iff, u_point. by apply elem_of_list_In.
Qed.
Lemma count_eq p : (forall x, point x -> near p x = true -> x ∈ u) ->
  length (List.filter (near p) u) = length (List.filter (near p) (all_points ns)).
Proof.
  intros H. apply Nat.le_antisymm; [apply count_le|].
  apply submseteq_length, NoDup_submseteq; [apply NoDup_filter_b, all_points_NoDup|]. intros x Hx.
  apply elem_of_list_In, filter_In in Hx as [Hx Hf]. apply elem_of_list_In, filter_In. split; [|done].
  apply elem_of_list_In, H; [|done]. apply all_points_iff. by apply elem_of_list_In.
Qed.
Lemma core_sound i p : u !! i = Some p -> Core (length u) minpts nin i -> DCore p.
Proof.
  intros E HC. split; [apply u_point; by eapply elem_of_list_lookup_2|]. apply (core_count i p E) in HC. pose proof (count_le p). lia.
Qed.
Lemma core_own i : i < n -> DCore (r, i) <-> Core (length u) minpts nin i.
Proof.
  intros Hi. split; [|by apply core_sound, u_own]. intros [_ HC]. apply (core_count i (r, i)); [by apply u_own|].
  rewrite count_eq; [done|]. intros x Hx Hnx. by apply (proj1 (proj2 (proj2 HG)) i x).
Qed.
(** two different near points have two neighbours each *)
Lemma two_neighbours p q : p <> q -> p ∈ u -> q ∈ u -> near p q = true -> 2 <= length (List.filter (near p) u).
Proof.
  intros Hne Hp Hq Hnq. assert ([p; q] ⊆+ List.filter (near p) u) as Hsub; [|by apply submseteq_length in Hsub].
  apply NoDup_submseteq; [repeat constructor; [by rewrite elem_of_list_singleton|apply not_elem_of_nil]|].
  intros x Hx. apply elem_of_list_In, filter_In. apply elem_of_cons in Hx as [->|Hx]; [split; [by apply elem_of_list_In|apply Hrefl]|].
  apply elem_of_list_singleton in Hx as ->. split; [by apply elem_of_list_In|done].
Qed.
(** near a point of the rank, core points are recognised *)
Lemma core_near i j q : i < n -> u !! j = Some q -> near (r, i) q = true -> DCore q -> Core (length u) minpts nin j.
Proof.
  intros Hi Ej Hnq HC. apply (core_count j q Ej). destruct (decide (minpts = 2)) as [H2|H2].
  - destruct (decide (q = (r, i))) as [->|Hne].
    + rewrite count_eq; [apply HC|]. intros x Hx Hnx. by apply (proj1 (proj2 (proj2 HG)) i x).
    + rewrite H2. apply two_neighbours with (q := (r, i)); [done|by eapply elem_of_list_lookup_2| |by rewrite Hsym].
      eapply elem_of_list_lookup_2. by apply u_own.
  - rewrite count_eq; [apply HC|]. intros x Hx Hnx. destruct HG as (_ & _ & _ & H4). apply (H4 ltac:(lia) i q x); try done. by apply DCore_point.
Qed.

Lemma conn_out a b : Conn (CoreEdge (length u) minpts nin) a b -> length u <= b \/ length u <= a -> a = b.
Proof.
  intros HC. induction HC as [a b (Ha & Hb & _)|a|a b _ IH|a b c _ IH1 _ IH2]; intros H.
  - destruct Ha, Hb. lia.
  - done.
  - symmetry. apply IH. tauto.
  - destruct (decide (b < length u)) as [Hy|Hy].
    + destruct H as [H|H]; [rewrite <- IH2 in H by (left; lia); lia|]. rewrite (IH1 ltac:(right; lia)) in H. lia.
    + rewrite IH1 by (left; lia). apply IH2. right. lia.
Qed.
Lemma conn_core a b : Conn (CoreEdge (length u) minpts nin) a b -> Core (length u) minpts nin a ->
  Core (length u) minpts nin b /\ forall p q, u !! a = Some p -> u !! b = Some q -> DConn p q.
Proof.
  intros HC. assert ((Core (length u) minpts nin a <-> Core (length u) minpts nin b) /\
    forall p q, u !! a = Some p -> u !! b = Some q -> DConn p q) as [H1 H2]; [|tauto].
  induction HC as [a b (Ha & Hb & Hab)|a|a b HC [IH1 IH2]|a b c HC1 [IH1 IH2] HC2 [IH3 IH4]].
  - split; [tauto|]. intros p q Ep Eq. apply dc_edge; [by eapply core_sound|by eapply core_sound|].
    unfold near_in in Hab. by rewrite Ep, Eq in Hab.
  - split; [done|]. intros p q Ep Eq. rewrite Ep in Eq. injection Eq as ->. apply dc_refl.
  - split; [tauto|]. intros p q Ep Eq. apply dc_sym. by apply IH2.
  - split; [tauto|]. intros p q Ep Eq. destruct (decide (b < length u)) as [Hb|Hb].
    + destruct (lookup_lt_is_Some_2 u b Hb) as [x Ex]. eapply dc_trans; [by apply IH2|by apply IH4].
    + rewrite (conn_out a b HC1) in Ep by lia. by apply IH4.
Qed.

(** The label of every point the rank works on. *)
Lemma local_label j p : u !! j = Some p -> exists z, labels !! j = Some z /\
  (z = (-1)%Z \/ exists m c, z = Z.of_nat m /\ u !! m = Some c /\ labels !! m = Some z /\ Lab p c).
Proof.
  intros Ej. pose proof (lookup_lt_Some _ _ _ Ej) as Hj.
  assert (forall i q, u !! i = Some q -> Core (length u) minpts nin i -> exists m c, labels !! i = Some (Z.of_nat m) /\ u !! m = Some c /\ labels !! m = Some (Z.of_nat m) /\ DCore c /\ DConn q c) as Hcore.
  { intros i q Ei HC. destruct (proj1 (vd_core _ _ _ _ HL) i HC) as (m & [Hm _] & Em).
    destruct (conn_core i m Hm HC) as [HCm Hdc]. destruct (lookup_lt_is_Some_2 u m (proj1 HCm)) as [c Ec].
    exists m, c. split; [done|]. split; [done|]. split; [rewrite <- Em; symmetry; by apply (proj2 (vd_core _ _ _ _ HL))|]. split; [by eapply core_sound|by apply Hdc]. }
  destruct (decide (minpts <= length (List.filter (near p) u))) as [HC|HnC].
  - apply (core_count j p Ej) in HC. destruct (Hcore j p Ej HC) as (m & c & H1 & H2 & H2' & H3 & H4).
    exists (Z.of_nat m). split; [done|]. right. exists m, c. split; [done|]. split; [done|]. split; [done|]. split; [done|].
    exists p. split; [by eapply core_sound|]. split; [apply Hrefl|done].
  - assert (~ Core (length u) minpts nin j) as HnC' by (by rewrite (core_count j p Ej)).
    destruct (existsb (fun i => (minpts <=? length (List.filter (nin i) (seq 0 (length u)))) && nin j i) (seq 0 (length u))) eqn:Eb.
    + apply existsb_exists in Eb as (i & Hi & Hb). apply andb_true_iff in Hb as [Hb1 Hb2]. apply Nat.leb_le in Hb1. apply in_seq in Hi.
      destruct (vd_border _ _ _ _ HL j Hj HnC') as (i' & HCi & Hni & Heq); [exists i; split; [split; [lia|done]|done]|].
      destruct (lookup_lt_is_Some_2 u i' (proj1 HCi)) as [q Eq]. destruct (Hcore i' q Eq HCi) as (m & c & H1 & H2 & H2' & H3 & H4).
      exists (Z.of_nat m). split; [by rewrite Heq|]. right. exists m, c. split; [done|]. split; [done|]. split; [done|]. split; [done|].
      exists q. split; [by eapply core_sound|]. split; [|done]. unfold near_in in Hni. by rewrite Ej, Eq in Hni.
    + exists (-1)%Z. split; [|by left]. apply (vd_noise _ _ _ _ HL); try done. intros i [Hi HCi].
      destruct (nin j i) eqn:En; [|done]. exfalso. apply not_true_iff_false in Eb. apply Eb. apply existsb_exists. exists i.
      split; [apply in_seq; lia|]. rewrite En, andb_true_r. by apply Nat.leb_le.
Qed.
(** Only noise is unlabelled, for the rank's own points. *)
Lemma own_label i : i < n -> (exists q, DCore q /\ near (r, i) q = true) -> labels !! i <> Some (-1)%Z.
Proof.
  intros Hi (q & Hq & Hnq) Hbad. pose proof (u_own i Hi) as Ei.
  assert (q ∈ u) as Hqu by (apply (proj1 (proj2 (proj2 HG)) i q); [done|by apply DCore_point|done]).
  apply elem_of_list_lookup in Hqu as [j Ej]. pose proof (core_near i j q Hi Ej Hnq Hq) as HCj.
  assert (forall k, Core (length u) minpts nin k -> labels !! k <> Some (-1)%Z) as Hk.
  { intros k HC Hb. destruct (proj1 (vd_core _ _ _ _ HL) k HC) as (m & _ & Em). rewrite Em in Hb. injection Hb. lia. }
  destruct (decide (minpts <= length (List.filter (near (r, i)) u))) as [HC|HnC].
  - by apply (Hk i); [apply (core_count i _ Ei)|].
  - assert (~ Core (length u) minpts nin i) as HnC' by (by rewrite (core_count i _ Ei)).
    destruct (vd_border _ _ _ _ HL i) as (i' & HCi & _ & Heq); [by eapply lookup_lt_Some|done| |].
    + exists j. split; [done|]. unfold near_in. by rewrite Ei, Ej.
    + apply (Hk i' HCi). by rewrite <- Heq.
Qed.
(** Near core points of which one belongs to the rank have the same label. *)
Lemma near_label i j q : i < n -> u !! j = Some q -> near (r, i) q = true -> DCore (r, i) -> DCore q -> labels !! i = labels !! j.
Proof.
  intros Hi Ej Hnq Hp Hq. apply (proj2 (vd_core _ _ _ _ HL)); [by apply core_own|by eapply core_near|].
  apply rst_step. split; [by apply core_own|]. split; [by eapply core_near|]. unfold near_in. by rewrite (u_own i Hi), Ej.
Qed.
Lemma convert_ok j z : u !! j = Some z -> convert_label (offsets_from 0 (Z.of_nat <$> ns)) r n ghosts (Z.of_nat j) = Some (gid z).
Proof.
  intros Ej. pose proof (lookup_lt_Some _ _ _ Ej) as Hj. rewrite u_len in Hj. unfold convert_label.
  destruct (Z.eqb_spec (Z.of_nat j) (-1)); [lia|]. destruct (Z.ltb_spec (Z.of_nat j) (Z.of_nat n)) as [H|H].
  - rewrite u_own in Ej by lia. injection Ej as <-. rewrite offsets_from_lookup by (apply lookup_lt_Some in Hn; lia). cbn [mbind option_bind].
    unfold gid. simpl. f_equal. lia.
  - replace (Z.to_nat (Z.of_nat j - Z.of_nat n)) with (j - n) by lia. replace j with (n + (j - n)) in Ej by lia. rewrite u_ghost in Ej.
    rewrite Ej. cbn [mbind option_bind]. assert (z ∈ ghosts) as Hin by (by eapply elem_of_list_lookup_2).
    destruct (proj1 (proj1 (proj2 HG) z Hin)) as (m & Em & _). rewrite offsets_from_lookup by (apply lookup_lt_Some in Em; lia). cbn [mbind option_bind].
    unfold gid. f_equal. lia.
Qed.
End rank.
End pipeline.
