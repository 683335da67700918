(** Proofs about the ray tracing example *)
From Coq Require Import Reals Lra.
From Verif Require Export RaytracingSpec.
From stdpp Require Import sorting.
Local Open Scope R_scope.
Local Open Scope nat_scope.

Lemma lsum_update (F G : nat -> R -> R) rays : forall (F G : nat -> R -> R) i e e' d, rays !! i = Some e -> (forall j x, j <> i -> F j x = G j x) -> (F i e = G i e' + d)%R ->
  lsum (imap F rays) = (lsum (imap G (<[i := e']> rays)) + d)%R.
Proof.
  clear F G. induction rays as [|x rays IH]; intros F G i e e' d Hi HF HE; [done|]. destruct i as [|i]; cbn in Hi |- *.
  - injection Hi as ->. rewrite HE. enough (imap (F ∘ S) rays = imap (G ∘ S) rays) as E by (unfold lsum in *; rewrite E; lra).
    apply imap_ext. intros j y _. cbn. by apply HF.
  - assert (lsum (imap (F ∘ S) rays) = (lsum (imap (G ∘ S) (<[i := e']> rays)) + d)%R) as E.
    { apply (IH (F ∘ S) (G ∘ S) i e e' d Hi); [|done]. intros j y Hj. apply HF. lia. }
    unfold lsum in *. rewrite (HF 0 x) by done.
    change (G 0%nat x + foldr Rplus 0 (imap (F ∘ S) rays) = G 0%nat x + foldr Rplus 0 (imap (G ∘ S) (<[i := e']> rays)) + d)%R. rewrite E. ring.
Qed.
Lemma lsum_add l : forall i x d, l !! i = Some x -> lsum (<[i := (x + d)%R]> l) = (lsum l + d)%R.
Proof.
  induction l as [|y l IH]; intros [|i] x d Hi; [done..| |]; cbn in Hi.
  - injection Hi as ->. cbn. lra.
  - change (y + lsum (<[i := x + d]> l) = y + lsum l + d)%R. rewrite (IH i x d Hi). lra.
Qed.
Lemma lsum_zero {A} (F : nat -> A -> R) l : forall (F : nat -> A -> R), (forall j x, F j x = 0%R) -> lsum (imap F l) = 0%R.
Proof. clear F. induction l as [|x l IH]; intros F H; [done|]. change (F 0%nat x + lsum (imap (F ∘ S) l) = 0)%R. rewrite H, (IH (F ∘ S)); [lra|]. intros; apply H. Qed.

Lemma lost_energy_R E L : lost_energy ROps rexpm1 E L = (E * (1 - exp (- L)))%R.
Proof. unfold lost_energy, rexpm1. real_ops. ring. Qed.

Lemma thread_of_cons_eq {A} i (h : A) tr : thread_of i ((i, h) :: tr) = h :: thread_of i tr.
Proof. unfold thread_of. cbn [List.filter fst]. by rewrite Nat.eqb_refl. Qed.
Lemma thread_of_cons_ne {A} i j (h : A) tr : i <> j -> thread_of i ((j, h) :: tr) = thread_of i tr.
Proof. unfold thread_of. cbn [List.filter fst]. intros H. destruct (Nat.eqb_spec j i); [congruence|done]. Qed.

Lemma run_hits_ok (tr : list (nat * hit R)) : forall rays cells, (forall ih, ih ∈ tr -> ih.1 < length rays /\ h_cell ih.2 < length cells) ->
  exists rays' cells', run_hits ROps rexpm1 tr (rays, cells) = Some (rays', cells') /\ length rays' = length rays /\ length cells' = length cells /\
    (forall i e, rays !! i = Some e -> rays' !! i = Some (e * growth (thread_of i tr))%R) /\
    (forall c x, cells !! c = Some x -> cells' !! c = Some (x + lsum (imap (fun i e => deposited e (thread_of i tr) c) rays))%R) /\
    (lsum cells' - lsum cells = lsum rays' - lsum rays)%R.
Proof.
  induction tr as [|[i h] tr IH]; intros rays cells HB.
  - exists rays, cells. split; [done|]. split; [done|]. split; [done|]. split; [|split].
    + intros i e Hi. rewrite Hi. f_equal. cbn. lra.
    + intros c x Hc. rewrite Hc. f_equal. rewrite (lsum_zero (fun i e => deposited e (thread_of i []) c)); [lra|done].
    + lra.
  - destruct (HB (i, h)) as [Bi Bc]; [left|]. cbn [fst snd] in Bi, Bc.
    destruct (lookup_lt_is_Some_2 rays i Bi) as [e He]. destruct (lookup_lt_is_Some_2 cells (h_cell h) Bc) as [x Hx].
    cbn [run_hits]. unfold deposit. cbn [fst snd]. rewrite He. cbn [mbind option_bind]. rewrite wr_Some by done. cbn [mbind option_bind]. rewrite Hx.
    cbn [mbind option_bind]. rewrite wr_Some by done. cbn [mbind option_bind]. rewrite lost_energy_R. real_ops.
    set (d := (e * (1 - exp (- h_length h)))%R).
    destruct (IH (<[i := (e + d)%R]> rays) (<[h_cell h := (x + d)%R]> cells)) as (rays' & cells' & E & L1 & L2 & R1 & R2 & R3).
    { intros ih Hin. rewrite !insert_length. apply HB. by right. }
    rewrite insert_length in L1, L2. exists rays', cells'. split; [exact E|]. split; [done|]. split; [done|]. split; [|split].
    + intros j y Hj. destruct (Nat.eq_dec j i) as [Eji|Hne].
      * subst j. rewrite (R1 i (e + d)%R) by (by apply list_lookup_insert). rewrite thread_of_cons_eq. cbn [growth foldr]. f_equal. assert (y = e) as -> by congruence.
        unfold growth, d. lra.
      * rewrite (R1 j y) by (by rewrite list_lookup_insert_ne). by rewrite thread_of_cons_ne.
    + intros c y Hc.
      rewrite (lsum_update (fun _ _ => 0%R) (fun _ _ => 0%R) rays (fun j e => deposited e (thread_of j ((i, h) :: tr)) c) (fun j e => deposited e (thread_of j tr) c)
        i e (e + d)%R (if h_cell h =? c then d else 0%R) He).
      2:{ intros j z Hj. by rewrite thread_of_cons_ne. }
      2:{ rewrite thread_of_cons_eq. cbn [deposited]. fold d. replace (e * (2 - exp (- h_length h)))%R with (e + d)%R by (unfold d; ring). lra. }
      destruct (Nat.eqb_spec (h_cell h) c) as [Ec|Hne].
      * subst c. rewrite (R2 (h_cell h) (x + d)%R) by (by apply list_lookup_insert). f_equal. assert (y = x) as -> by congruence. lra.
      * rewrite (R2 c y) by (by rewrite list_lookup_insert_ne). f_equal. lra.
    + rewrite (lsum_add cells _ x d Hx), (lsum_add rays _ e d He) in R3. lra.
Qed.

(** The segments after sorting *)
Lemma filter_segment {A} (key : A -> nat) (l : list A) i : forall a b, a <= b -> b <= length l ->
  (forall j x, l !! j = Some x -> (key x = i <-> a <= j < b)) -> List.filter (fun x => key x =? i) l = take (b - a) (drop a l).
Proof.
  induction l as [|x l IH]; intros a b Hab Hb HK; cbn [length] in *.
  { destruct a, b; done || (cbn; try lia). all: by rewrite ?take_nil. }
  cbn [List.filter].
  assert (forall a b, (forall j y, l !! j = Some y -> (key y = i <-> a <= S j < b)) -> 1 <= a -> a <= b -> b <= S (length l) ->
     List.filter (fun x => key x =? i) l = take (b - a) (drop (a - 1) l)) as Hs.
  { intros a' b' H H1 H2 H3. rewrite (IH (a' - 1) (b' - 1)); [f_equal; lia|lia|lia|]. intros j y Hj. rewrite (H j y Hj). lia. }
  pose proof (HK 0 x eq_refl) as H0. destruct a as [|a].
  - destruct b as [|b].
    + destruct (Nat.eqb_spec (key x) i) as [E|_]; [apply H0 in E; lia|]. cbn [Nat.sub take].
      rewrite (Hs 1 1); [done| |lia|lia|lia]. intros j y Hj. rewrite (HK (S j) y Hj). lia.
    + destruct (Nat.eqb_spec (key x) i) as [E|E]; [|exfalso; apply E, H0; lia]. cbn [Nat.sub take drop]. f_equal.
      rewrite (Hs 1 (S b)); [|intros j y Hj; rewrite (HK (S j) y Hj); lia|lia|lia|lia]. cbn [Nat.sub drop]. by rewrite ?Nat.sub_0_r.
  - destruct (Nat.eqb_spec (key x) i) as [E|_]; [apply H0 in E; lia|]. cbn [drop].
    rewrite (Hs (S a) b); [by replace (S a - 1) with a by lia| |lia|lia|lia]. intros j y Hj. exact (HK (S j) y Hj).
Qed.
Lemma take_drop_mapM {A} (l : list A) : forall a n, a + n <= length l -> mapM (fun j => l !! j) (seq a n) = Some (take n (drop a l)).
Proof.
  intros a n. revert a. induction n as [|n IH]; intros a H; [done|]. destruct (lookup_lt_is_Some_2 l a) as [x Hx]; [lia|].
  cbn [seq mapM]. rewrite Hx. cbn [mbind option_bind]. rewrite (IH (S a)) by lia. cbn. f_equal. by rewrite (drop_S l x a Hx).
Qed.

Lemma sorted_unique (l1 l2 : list (hit R)) : StronglySorted by_entry l1 -> StronglySorted by_entry l2 -> l1 ≡ₚ l2 -> NoDup (map h_entry l1) -> l1 = l2.
Proof.
  intros S1. revert l2. induction S1 as [|x l1 S1 IH F1]; intros l2 S2 HP ND.
  - by apply Permutation_nil_l in HP.
  - destruct l2 as [|y l2]; [by apply Permutation_nil_r in HP|]. apply StronglySorted_inv in S2 as [S2 F2]. cbn [map] in ND. apply NoDup_cons in ND as [Hx ND].
    assert (y ∈ x :: l1) as Hy by (rewrite HP; left). assert (x ∈ y :: l2) as Hx' by (rewrite <- HP; left).
    assert (x = y) as ->.
    { apply elem_of_cons in Hy as [->|Hy]; [done|]. apply elem_of_cons in Hx' as [->|Hx']; [done|].
      rewrite Forall_forall in F1, F2. apply elem_of_list_In in Hy, Hx'. specialize (F1 y ltac:(by apply elem_of_list_In)). specialize (F2 x ltac:(by apply elem_of_list_In)). unfold by_entry in *.
      exfalso. apply Hx. apply elem_of_list_In, in_map_iff. exists y. split; [lra|done]. }
    f_equal. apply IH; [done| |done]. by apply Permutation_cons_inv in HP.
Qed.

Section Segments.
Context (segs : list (list (hit R))).
Definition rays_of (base : nat) (segs : list (list (hit R))) : Prop := forall i seg, segs !! i = Some seg -> Forall (fun h => h_ray h = base + i) seg.

Lemma rays_of_cons base seg segs' : rays_of base (seg :: segs') -> Forall (fun h => h_ray h = base) seg /\ rays_of (S base) segs'.
Proof.
  intros H. split; [specialize (H 0 seg eq_refl); by rewrite Nat.add_0_r in H|]. intros i s Hi. replace (S base + i) with (base + S i) by lia. exact (H (S i) s Hi).
Qed.
Lemma rays_of_bound segs' : forall base x, rays_of base segs' -> x ∈ concat segs' -> base <= h_ray x < base + length segs'.
Proof.
  induction segs' as [|seg segs' IH]; intros base x H Hx; [by apply elem_of_nil in Hx|]. apply rays_of_cons in H as [H1 H2]. cbn [concat length] in *.
  apply elem_of_app in Hx as [Hx|Hx]; [rewrite Forall_forall in H1; rewrite (H1 x Hx); lia|]. specialize (IH _ _ H2 Hx). lia.
Qed.
Lemma concat_pos segs' : forall base j x i, rays_of base segs' -> concat segs' !! j = Some x -> i < length segs' ->
  (h_ray x = base + i <-> length (concat (take i segs')) <= j < length (concat (take (S i) segs'))).
Proof.
  induction segs' as [|seg segs' IH]; intros base j x i H Hj Hi; [done|]. apply rays_of_cons in H as [H1 H2]. cbn [concat] in Hj.
  rewrite lookup_app in Hj. destruct (seg !! j) as [y|] eqn:Ej.
  - injection Hj as ->. assert (h_ray x = base) as -> by (rewrite Forall_forall in H1; apply H1; by eapply elem_of_list_lookup_2).
    apply lookup_lt_Some in Ej. destruct i as [|i]; cbn [take concat length]; rewrite ?app_length; lia.
  - apply lookup_ge_None in Ej. destruct i as [|i].
    + assert (S base <= h_ray x) by (eapply rays_of_bound; [done|by eapply elem_of_list_lookup_2]). cbn [take concat length]. rewrite app_nil_r. lia.
    + cbn [length] in Hi. pose proof (IH (S base) (j - length seg) x i H2 Hj ltac:(lia)) as E. cbn [take concat] in *. rewrite !app_length. lia.
Qed.
Lemma keys_sorted segs' : forall base, rays_of base segs' -> StronglySorted le (map h_ray (concat segs')).
Proof.
  induction segs' as [|seg segs' IH]; intros base H; [constructor|]. pose proof H as H0. apply rays_of_cons in H as [H1 H2]. cbn [concat]. rewrite map_app.
  induction H1 as [|x seg Hx H1 IH1]; [by apply (IH (S base))|]. cbn [map app]. constructor.
  - apply IH1. intros i s Hi. destruct i as [|i]; [injection Hi as <-; by rewrite Nat.add_0_r|]. exact (H0 (S i) s Hi).
  - rewrite <- map_app. apply Forall_forall. intros k Hk. apply elem_of_list_In, in_map_iff in Hk as (y & <- & Hy). apply elem_of_list_In, elem_of_app in Hy as [Hy|Hy].
    + rewrite Forall_forall in H1. rewrite (H1 y Hy). lia.
    + pose proof (rays_of_bound _ _ _ H2 Hy). lia.
Qed.
Lemma filter_seg segs' : forall base i seg, rays_of base segs' -> segs' !! i = Some seg -> List.filter (fun x => h_ray x =? base + i) (concat segs') = seg.
Proof.
  assert (forall l r, (forall x, x ∈ l -> h_ray x <> r) -> List.filter (fun x : hit R => h_ray x =? r) l = []) as HN.
  { induction l as [|x l IH]; intros r H; [done|]. cbn [List.filter]. destruct (Nat.eqb_spec (h_ray x) r) as [E|_]; [destruct (H x); [left|done]|]. apply IH. intros y Hy. apply H. by right. }
  assert (forall l r, (forall x, x ∈ l -> h_ray x = r) -> List.filter (fun x : hit R => h_ray x =? r) l = l) as HA.
  { induction l as [|x l IH]; intros r H; [done|]. cbn [List.filter]. rewrite (H x), Nat.eqb_refl by left. f_equal. apply IH. intros y Hy. apply H. by right. }
  induction segs' as [|s segs' IH]; intros base i seg H Hi; [done|]. apply rays_of_cons in H as [H1 H2]. cbn [concat]. rewrite List.filter_app. rewrite Forall_forall in H1. destruct i as [|i].
  - injection Hi as ->. rewrite Nat.add_0_r, HA by done. rewrite HN; [apply app_nil_r|]. intros x Hx. pose proof (rays_of_bound _ _ _ H2 Hx). lia.
  - rewrite HN by (intros x Hx; rewrite (H1 x Hx); lia). cbn [app]. replace (base + S i) with (S base + i) by lia. by apply IH.
Qed.
End Segments.

Lemma sorted_lookup {A} (R : A -> A -> Prop) l : (forall j k x y, j < k -> l !! j = Some x -> l !! k = Some y -> R x y) -> StronglySorted R l.
Proof.
  induction l as [|x l IH]; intros H; [constructor|]. constructor; [apply IH; intros j k a b Hjk; apply (H (S j) (S k)); lia|].
  apply Forall_forall. intros y Hy. apply elem_of_list_lookup_1 in Hy as [k Hk]. apply (H 0 (S k) x y); [lia|done|done].
Qed.
Lemma sorted_filter {A} (R : A -> A -> Prop) f l : StronglySorted R l -> StronglySorted R (List.filter f l).
Proof.
  induction 1 as [|x l S IH F]; [constructor|]. cbn [List.filter]. destruct (f x); [|done]. constructor; [done|]. rewrite Forall_forall in *.
  intros y Hy. apply F. apply elem_of_list_In, filter_In in Hy as [Hy _]. by apply elem_of_list_In.
Qed.
Lemma filter_perm {A} (f : A -> bool) l l' : l ≡ₚ l' -> List.filter f l ≡ₚ List.filter f l'.
Proof. induction 1 as [|x l l' _ IH|x y l|l l' l'' _ IH1 _ IH2]; cbn; [done|destruct (f x); [by constructor|done]|destruct (f x), (f y); try done; constructor|by rewrite IH1]. Qed.
Lemma mapM_lookup_perm {A} (values : list A) perm : perm ≡ₚ seq 0 (length values) -> exists W, mapM (fun p => values !! p) perm = Some W /\ W ≡ₚ values.
Proof.
  intros HP. assert (exists W, mapM (fun p => values !! p) perm = Some W /\ Some <$> W = (fun p => values !! p) <$> perm) as (W & E & EW).
  { assert (forall p, p ∈ perm -> is_Some (values !! p)) as HS by (intros p Hp; apply lookup_lt_is_Some_2; rewrite HP in Hp; apply elem_of_seq in Hp; lia).
    clear HP. induction perm as [|p perm IH]; [by exists []|]. destruct IH as (W & E & EW); [intros q Hq; apply HS; by right|].
    destruct (HS p) as [x Hx]; [left|]. exists (x :: W). split; [cbn; rewrite Hx; cbn; rewrite E; done|]. rewrite !fmap_cons, EW, Hx. done. }
  exists W. split; [done|].
  assert (Some <$> W ≡ₚ Some <$> values) as HPs.
  { rewrite EW, HP. clear. replace ((fun p => values !! p) <$> seq 0 (length values)) with (Some <$> values); [done|]. apply list_eq. intros i. rewrite !list_lookup_fmap.
    destruct (decide (i < length values)) as [H|H].
    - rewrite lookup_seq_lt by done. destruct (lookup_lt_is_Some_2 values i H) as [x Hx]. cbn. by rewrite Hx.
    - rewrite !lookup_ge_None_2; [done|rewrite seq_length; lia|lia]. }
  assert (forall l l' : list (option A), l ≡ₚ l' -> omap (fun o => o) l ≡ₚ omap (fun o => o) l') as HO.
  { induction 1 as [|x l l' _ IH|x y l|l l' l'' _ IH1 _ IH2]; cbn; [done|destruct x; [by constructor|done]|destruct x, y; try done; constructor|by rewrite IH1]. }
  apply HO in HPs. assert (forall l : list A, omap (fun o => o) (Some <$> l) = l) as HI by (induction l as [|x l IH]; [done|cbn; by f_equal]). by rewrite !HI in HPs.
Qed.

(** The hits of a thread after the sort are those of its ray, ordered by the entry. *)
Lemma thread_hits_ok segs offsets perm i seg : rays_of 0 segs ->
  (forall k, k <= length segs -> offsets !! k = Some (length (concat (take k segs)))) ->
  perm ≡ₚ seq 0 (length (concat segs)) ->
  (forall j k p q x y, j < k -> perm !! j = Some p -> perm !! k = Some q -> concat segs !! p = Some x -> concat segs !! q = Some y -> hit_less ROps y x = false) ->
  segs !! i = Some seg ->
  exists hs, thread_hits (concat segs) offsets perm i = Some hs /\ hs ≡ₚ seg /\ StronglySorted by_entry hs.
Proof.
  intros HR HO HP HS Hi. destruct (mapM_lookup_perm _ _ HP) as (W & EW & PW).
  pose proof (lookup_lt_Some _ _ _ Hi) as Li. pose proof (mapM_length _ _ _ EW) as LW.
  assert (forall j, (p ← perm !! j; concat segs !! p) = W !! j) as HW.
  { intros j. apply mapM_Some_1 in EW. destruct (perm !! j) as [p|] eqn:Ep; cbn.
    - destruct (Forall2_lookup_l _ _ _ _ _ EW Ep) as (x & -> & ->). done.
    - symmetry. apply lookup_ge_None. apply lookup_ge_None in Ep. lia. }
  assert (StronglySorted (fun x y => hit_less ROps y x = false) W) as SW.
  { apply sorted_lookup. intros j k x y Hjk Hx Hy. rewrite <- HW in Hx, Hy. destruct (perm !! j) as [p|] eqn:Ep; [|done]. destruct (perm !! k) as [q|] eqn:Eq; [|done].
    exact (HS j k p q x y Hjk Ep Eq Hx Hy). }
  assert (map h_ray W = map h_ray (concat segs)) as EK.
  { apply (StronglySorted_unique le); [|by eapply keys_sorted|by rewrite PW].
    clear -SW. induction SW as [|x l S IH F]; [constructor|]. cbn [map]. constructor; [done|]. apply Forall_map. eapply Forall_impl; [exact F|]. intros y Hy. cbn in *.
    unfold hit_less in Hy. destruct (Nat.eqb_spec (h_ray y) (h_ray x)); [lia|]. apply Nat.ltb_ge in Hy. lia. }
  set (a := length (concat (take i segs))). set (b := length (concat (take (S i) segs))).
  assert (a <= b) as Hab by (unfold a, b; rewrite (take_S_r _ _ _ Hi), concat_app, app_length; lia).
  assert (b <= length W) as HbW.
  { rewrite PW. unfold b. rewrite <- (take_drop (S i) segs) at 2. rewrite concat_app, app_length. lia. }
  exists (take (b - a) (drop a W)). unfold thread_hits. rewrite (HO i), (HO (S i)) by lia. cbn [mbind option_bind]. fold a b.
  assert (List.filter (fun x => h_ray x =? i) W = take (b - a) (drop a W)) as EF.
  { apply filter_segment; [done|done|]. intros j x Hj. assert (exists y, concat segs !! j = Some y /\ h_ray y = h_ray x) as (y & Hy & Ey).
    { assert (map h_ray W !! j = Some (h_ray x)) as H by (rewrite list_lookup_fmap, Hj; done). rewrite EK in H. apply list_lookup_fmap_inv in H as (y & ? & ?). by exists y. }
    rewrite <- Ey. exact (concat_pos segs 0 j y i HR Hy Li). }
  split; [|split].
  - rewrite <- (take_drop_mapM W a (b - a)) by lia. apply mapM_ext. done.
  - rewrite <- EF, (filter_perm _ _ _ PW). pose proof (filter_seg segs 0 i seg HR Hi) as E. cbn [Nat.add] in E. by rewrite E.
  - rewrite <- EF. clear -SW. induction SW as [|x l S IH F]; [constructor|]. cbn [List.filter]. destruct (Nat.eqb_spec (h_ray x) i) as [E|]; [|done]. constructor; [done|].
    rewrite Forall_forall in *. intros y Hy. apply elem_of_list_In, filter_In in Hy as [Hy Ey]. apply elem_of_list_In in Hy. apply Nat.eqb_eq in Ey. specialize (F y Hy). cbn in F.
    unfold hit_less in F. rewrite E, Ey, Nat.eqb_refl in F. unfold by_entry. real_ops. by apply Rltb_ge in F.
Qed.
