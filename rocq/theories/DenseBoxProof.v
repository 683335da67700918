(** The DenseBox implementation computes the same clustering. *)
From Verif Require Import TraversalProof.
From Verif Require Export PropertiesReorder DenseBoxModel DbscanProof PropertiesDbscan PropertiesKernelAlg UnionFindProof.
Local Open Scope nat_scope.

(** What the grid must provide: two points of a cell are within eps of each other; a sphere that reaches a point reaches
    the box of its cell. *)
Definition CellContract (near hit : nat -> nat -> bool) (cell : nat -> nat) : Prop :=
  (forall a b, cell a = cell b -> near a b = true) /\ (forall a b, near a b = true -> hit a (cell b) = true).

(** the runs found by computeOffsetsInOrderedView *)
Record Runs (dco : list nat) (view : list nat) : Prop := {
  ru_len : 1 <= length dco;
  ru_0 : dco !! 0 = Some 0;
  ru_last : dco !! (length dco - 1) = Some (length view);
  ru_lt : forall k a b, dco !! k = Some a -> dco !! S k = Some b -> a < b;
  ru_eq : forall k a b i x y, dco !! k = Some a -> dco !! S k = Some b -> a <= i < b -> view !! a = Some x -> view !! i = Some y -> x = y }.
Lemma runs_offsets dco view : Runs dco view -> CellOffsets dco (length view).
Proof.
  intros R. split; [apply R|]. split; [apply R|]. intros c a b H1 H2. pose proof (ru_lt _ _ R _ _ _ H1 H2). lia.
Qed.
Lemma runs_of order view scratch : order ≡ₚ seq 0 (S (length view)) -> length scratch = S (length view) ->
  exists dco, computeOffsetsInOrderedView Nat.eqb order view scratch = Some dco /\ Runs dco view.
Proof.
  intros H1 H2. destruct (C20_run_offsets Nat.eqb Nat.eqb_eq order view scratch H1 H2) as (offs & E & A & B & C & D & F & _).
  exists offs. split; [done|]. by constructor.
Qed.
Lemma run_find (dco : list nat) p : dco !! 0 = Some 0 -> forall m x, dco !! m = Some x -> p < x ->
  exists k a b, dco !! k = Some a /\ dco !! S k = Some b /\ a <= p < b.
Proof.
  intros H0. induction m as [|m IH]; intros x Hm Hp; [rewrite H0 in Hm; injection Hm as <-; lia|].
  destruct (lookup_lt_is_Some_2 dco m) as [y Hy]; [apply lookup_lt_Some in Hm; lia|].
  destruct (Nat.lt_ge_cases p y); [by eapply IH|]. exists m, y, x. done.
Qed.

Lemma NoDup_part {A} (l : list A) m d : NoDup l -> NoDup (take m (drop d l)).
Proof.
  intros H. rewrite <- (take_drop d l) in H. apply NoDup_app in H as (_ & _ & H).
  rewrite <- (take_drop m (drop d l)) in H. by apply NoDup_app in H as (H & _).
Qed.

Record Layout (near : nat -> nat -> bool) (cell : nat -> nat) (n minpts : nat) (idx pm dco : list nat) (nd : nat) : Prop := {
  ly_perm : pm ≡ₚ seq 0 n;
  ly_cell : forall p i, pm !! p = Some i -> idx !! p = Some (cell i);
  ly_nd : nd <= n;
  ly_dense : forall p i, p < nd -> pm !! p = Some i -> Core n minpts near i;
  ly_runs : Runs dco (take nd idx) }.

(** from C26 to the layout *)
Lemma layout_of near hit cell n minpts offs permute idx pm nd : CellContract near hit cell -> permute ≡ₚ seq 0 n ->
  Runs offs (map cell permute) -> DenseFirst offs (map cell permute) permute minpts nd idx pm ->
  pm ≡ₚ seq 0 n /\ (forall p i, pm !! p = Some i -> idx !! p = Some (cell i)) /\ nd <= n /\
  (forall p i, p < nd -> pm !! p = Some i -> Core n minpts near i).
Proof.
  intros [HC _] HP HR [(dl & sl & H1 & H2 & H3 & H4 & H5 & H6) HZ].
  pose proof (runs_offsets _ _ HR) as HO. rewrite map_length in HO.
  assert (length permute = n) as HL by (rewrite HP; apply seq_length).
  assert (forall A (arr : list A), length arr = n -> concat (map (segment offs arr) (dl ++ sl)) ≡ₚ arr) as HA.
  { intros A arr Ha. etransitivity; [apply concat_perm, (fmap_Permutation (segment offs arr)), H1|].
    change (segment offs arr <$> seq 0 (length offs - 1)) with (map (segment offs arr) (seq 0 (length offs - 1))).
    rewrite (segments_all offs (length permute)); [done|done|congruence]. }
  assert (pm ≡ₚ permute) as P1 by (rewrite H5; apply HA; done).
  assert (idx ≡ₚ map cell permute) as P2 by (rewrite H4; apply HA; rewrite map_length; done).
  assert (pm ≡ₚ seq 0 n) as P3 by (by rewrite P1).
  assert (length pm = n) as L1 by (rewrite P3; apply seq_length).
  assert (length idx = n) as L2 by (rewrite P2, map_length; done).
  assert (length pm = length (concat (map (segment offs permute) dl)) + length (concat (map (segment offs permute) sl))) as L3.
  { by rewrite H5, map_app, concat_app, app_length. }
  split; [done|]. split; [|split; [lia|]].
  - intros p i Hp. destruct (lookup_lt_is_Some_2 idx p) as [c Hc]; [rewrite L2, <- L1; by eapply lookup_lt_Some|]. rewrite Hc. f_equal.
    assert ((c, i) ∈ zip idx pm) as Hin.
    { apply elem_of_list_lookup. exists p. apply lookup_zip_with_Some. eauto. }
    rewrite HZ in Hin. apply elem_of_list_lookup in Hin as [q Hq]. apply lookup_zip_with_Some in Hq as (c' & i' & E & Hq1 & Hq2).
    injection E as <- <-. change (map cell permute) with (cell <$> permute) in Hq1. rewrite list_lookup_fmap, Hq2 in Hq1. by injection Hq1.
  - intros p i Hp Hi. assert (i < n) as Hin by (apply elem_of_list_lookup_2 in Hi; rewrite P3 in Hi; apply elem_of_seq in Hi; lia).
    split; [done|].
    rewrite H5, map_app, concat_app, lookup_app_l in Hi by lia.
    apply elem_of_list_lookup_2, elem_of_list_In, in_concat in Hi as (seg & Hseg & Hi). apply in_map_iff in Hseg as (c & <- & Hc).
    apply elem_of_list_In in Hc, Hi. specialize (H2 c Hc). etransitivity; [exact H2|].
    assert (c < length offs - 1) as HcN.
    { assert (c ∈ dl ++ sl) as H by (apply elem_of_app; by left). rewrite H1 in H. apply elem_of_seq in H. lia. }
    assert (forall j, j ∈ segment offs permute c -> cell j = cell i) as Hsame.
    { assert (exists x, forall j, j ∈ segment offs permute c -> cell j = x) as [x Hx]; [|intros j Hj; rewrite (Hx j Hj), (Hx i Hi); done].
      destruct (lookup_lt_is_Some_2 offs c) as [a Ha]; [lia|]. destruct (lookup_lt_is_Some_2 offs (S c)) as [b Hb]; [lia|].
      destruct (lookup_lt_is_Some_2 permute a) as [fa Hfa].
      { destruct (cell_bound offs (length permute) HO c HcN) as [Hb1 _]. rewrite Ha in Hb1. simpl in Hb1. unfold id in Hb1.
        pose proof (ru_lt _ _ HR _ _ _ Ha Hb). unfold csize in Hb1. rewrite Ha, Hb in Hb1. simpl in Hb1. unfold id in Hb1. lia. }
      exists (cell fa). intros j Hj. apply elem_of_list_lookup in Hj as [q Hq]. unfold segment in Hq.
      assert (q < csize offs c) as Hqc by (apply lookup_lt_Some in Hq; rewrite take_length in Hq; lia).
      rewrite lookup_take in Hq by done. rewrite lookup_drop, Ha in Hq. simpl in Hq. unfold id in Hq.
      unfold csize in Hqc. rewrite Ha, Hb in Hqc. simpl in Hqc. unfold id in Hqc. symmetry.
      eapply (ru_eq _ _ HR c a b (a + q)); [done|done|lia| |].
      - change (map cell permute) with (cell <$> permute). by rewrite list_lookup_fmap, Hfa.
      - change (map cell permute) with (cell <$> permute). by rewrite list_lookup_fmap, Hq. }
    apply submseteq_length, NoDup_submseteq.
    + assert (NoDup permute) as HN by (rewrite HP; apply NoDup_seq). unfold segment.
      by apply NoDup_part.
    + intros j Hj. apply elem_filter. split; [|apply HC; symmetry; by apply Hsame].
      rewrite <- HP. unfold segment in Hj. apply elem_of_take in Hj as (q & Hq & _). rewrite lookup_drop in Hq. by eapply elem_of_list_lookup_2.
Qed.

Section Kernels.
Variables (near hit : nat -> nat -> bool) (cell : nat -> nat) (n minpts : nat) (idx pm dco : list nat) (nd : nat).
Hypothesis near_sym : forall a b, near a b = near b a.
Hypothesis HCC : CellContract near hit cell.
Hypothesis LY : Layout near cell n minpts idx pm dco nd.
Notation ndc := (num_dense_cells dco).
Notation m := (num_mixed dco nd n).
Notation leaf := (mixed_leaf near hit idx pm dco nd).

Lemma pm_len : length pm = n.
Proof. rewrite (ly_perm _ _ _ _ _ _ _ _ LY). apply seq_length. Qed.
Lemma pm_at p : p < n -> exists i, pm !! p = Some i /\ i < n /\ idx !! p = Some (cell i).
Proof.
  intros Hp. destruct (lookup_lt_is_Some_2 pm p) as [i Hi]; [by rewrite pm_len|]. exists i. split; [done|]. split; [|by apply (ly_cell _ _ _ _ _ _ _ _ LY)].
  apply elem_of_list_lookup_2 in Hi. rewrite (ly_perm _ _ _ _ _ _ _ _ LY) in Hi. apply elem_of_seq in Hi. lia.
Qed.
Lemma pm_pos i : i < n -> exists p, p < n /\ pm !! p = Some i.
Proof.
  intros Hi. assert (i ∈ pm) as H by (rewrite (ly_perm _ _ _ _ _ _ _ _ LY); apply elem_of_seq; lia). apply elem_of_list_lookup in H as [p Hp].
  exists p. split; [|done]. rewrite <- pm_len. by eapply lookup_lt_Some.
Qed.
Lemma view_len : length (take nd idx) = nd.
Proof.
  rewrite take_length. pose proof (ly_nd _ _ _ _ _ _ _ _ LY) as H. destruct (decide (nd = 0)) as [->|Hne]; [lia|].
  destruct (pm_at (nd - 1)) as (i & _ & _ & E); [lia|]. apply lookup_lt_Some in E. lia.
Qed.
Lemma dco_offsets : CellOffsets dco nd.
Proof. pose proof (runs_offsets _ _ (ly_runs _ _ _ _ _ _ _ _ LY)) as H. by rewrite view_len in H. Qed.
Lemma dco_at k : k < ndc -> exists a b, dco !! k = Some a /\ dco !! S k = Some b /\ a < b /\ b <= nd.
Proof.
  intros Hk. unfold num_dense_cells in Hk. destruct (lookup_lt_is_Some_2 dco k) as [a Ha]; [lia|]. destruct (lookup_lt_is_Some_2 dco (S k)) as [b Hb]; [lia|].
  exists a, b. split; [done|]. split; [done|]. split; [by eapply (ru_lt _ _ (ly_runs _ _ _ _ _ _ _ _ LY))|].
  destruct (cell_bound dco nd dco_offsets k Hk) as [H1 H2]. rewrite Ha in H1, H2. rewrite Hb in H2. simpl in H1, H2. unfold id in *. lia.
Qed.
Lemma cell_points_ok k : k < ndc -> cell_points dco pm k = Some (segment dco pm k).
Proof.
  intros Hk. destruct (dco_at k Hk) as (a & b & Ha & Hb & Hlt & Hle). unfold cell_points. rewrite Ha. simpl. rewrite Hb. simpl.
  apply mapM_Some. unfold segment, csize. rewrite Ha, Hb. simpl. unfold id.
  assert (length pm = n) as HL by apply pm_len. pose proof (ly_nd _ _ _ _ _ _ _ _ LY) as Hnd.
  apply Forall2_lookup. intros q. destruct (Nat.lt_ge_cases q (b - a)) as [Hq|Hq].
  - rewrite lookup_seq_lt by done. rewrite lookup_take by done. rewrite lookup_drop.
    destruct (lookup_lt_is_Some_2 pm (a + q)) as [x Hx]; [lia|]. rewrite Hx. by constructor.
  - rewrite lookup_seq_ge by done. rewrite lookup_take_ge by done. constructor.
Qed.
Lemma seg_elem k j : k < ndc -> (j ∈ segment dco pm k <-> exists a b p, dco !! k = Some a /\ dco !! S k = Some b /\ a <= p < b /\ pm !! p = Some j).
Proof.
  intros Hk. destruct (dco_at k Hk) as (a & b & Ha & Hb & Hlt & Hle). unfold segment, csize. rewrite Ha, Hb. simpl. unfold id. split.
  - intros Hj. apply elem_of_take in Hj as (q & Hq & Hlq). rewrite lookup_drop in Hq. exists a, b, (a + q). split; [done|]. split; [done|]. split; [lia|done].
  - intros (a' & b' & p & [= <-] & [= <-] & Hp & Hj). apply elem_of_take. exists (p - a). rewrite lookup_drop. replace (a + (p - a)) with p by lia. split; [done|lia].
Qed.
(** a dense point lies in the segment of some dense cell *)
Lemma dense_seg p i : p < nd -> pm !! p = Some i -> exists k, k < ndc /\ i ∈ segment dco pm k /\ leaf 0 k = hit 0 (cell i) /\ forall q, leaf q k = hit q (cell i).
Proof.
  intros Hp Hi. destruct dco_offsets as (H0 & HN & _). destruct (run_find dco p H0 _ _ HN Hp) as (k & a & b & Ha & Hb & Hab).
  assert (k < ndc) as Hk by (unfold num_dense_cells; apply lookup_lt_Some in Hb; lia). exists k. split; [done|].
  assert (forall q, leaf q k = hit q (cell i)) as HL; [|split; [apply seg_elem; [done|]; eauto 10|auto]].
  intros q. unfold mixed_leaf. destruct (Nat.ltb_spec k ndc); [|lia]. f_equal. rewrite Ha. simpl. unfold id.
  destruct (dco_at k Hk) as (a' & b' & Ha' & Hb' & Hlt & Hle). assert (a' = a) by congruence. assert (b' = b) by congruence. subst.
  pose proof (ly_nd _ _ _ _ _ _ _ _ LY). destruct (pm_at a) as (fa & _ & _ & Ea); [lia|]. rewrite Ea. simpl. unfold id.
  assert (take nd idx !! a = Some (cell fa)) as V1 by (rewrite lookup_take by lia; done).
  assert (take nd idx !! p = Some (cell i)) as V2 by (rewrite lookup_take by lia; by apply (ly_cell _ _ _ _ _ _ _ _ LY)).
  by apply (ru_eq _ _ (ly_runs _ _ _ _ _ _ _ _ LY) k a b p _ _ Ha Hb Hab V1 V2).
Qed.
(** a point outside the dense cells is a primitive of its own *)
Lemma sparse_prim p i : nd <= p -> p < n -> pm !! p = Some i -> exists k, ndc <= k /\ k < m /\ nd + (k - ndc) = p /\ forall q, leaf q k = near q i.
Proof.
  intros H1 H2 H3. exists (ndc + (p - nd)). split; [lia|]. split; [unfold num_mixed; lia|]. split; [lia|].
  intros q. unfold mixed_leaf. destruct (Nat.ltb_spec (ndc + (p - nd)) ndc); [lia|]. replace (nd + (ndc + (p - nd) - ndc)) with p by lia. by rewrite H3.
Qed.

Variables (star swap : bool) (core : nat -> bool) (E : nat -> nat -> Prop).
Hypothesis core_dense : forall p i, p < nd -> pm !! p = Some i -> core i = true.
Hypothesis core_lt' : forall a b, E a b -> a < n /\ b < n.
Hypothesis HE : forall a b, a < n -> b < n -> (E a b <-> core a = true /\ core b = true /\ near a b = true).
Notation C := (fun c : nat => core c = true).

(** *** First kernel *)
Lemma dense_progs_ok : exists progs1, dense_progs idx pm nd = Some progs1 /\
  (forall prog op, prog ∈ progs1 -> op ∈ prog -> exists i j, op = Merge i j /\ i < n /\ j < n /\ E i j) /\
  (forall p i j, p < nd -> 1 <= p -> pm !! p = Some i -> pm !! (p - 1) = Some j -> cell i = cell j -> exists prog, prog ∈ progs1 /\ Merge i j ∈ prog).
Proof.
  set (f := fun i => a ← idx !! i; b ← idx !! (i - 1); if a =? b then x ← pm !! i; y ← pm !! (i - 1); Some [Merge x y] else Some []).
  pose proof (ly_nd _ _ _ _ _ _ _ _ LY) as Hnd.
  assert (forall p, 1 <= p -> p < nd -> exists i j, pm !! p = Some i /\ pm !! (p - 1) = Some j /\ i < n /\ j < n /\
     f p = Some (if cell i =? cell j then [Merge i j] else [])) as Hf.
  { intros p H1 H2. destruct (pm_at p) as (i & Hi & Hin & Ei); [lia|]. destruct (pm_at (p - 1)) as (j & Hj & Hjn & Ej); [lia|].
    exists i, j. do 4 (split; [done|]). unfold f. rewrite Ei. simpl. rewrite Ej. simpl. rewrite Hi, Hj. simpl. by destruct (cell i =? cell j). }
  assert (is_Some (mapM f (seq 1 (nd - 1)))) as [progs1 Hpr].
  { apply mapM_is_Some, Forall_forall. intros p Hp. apply elem_of_seq in Hp. change (is_Some (f p)).
    destruct (Hf p) as (i & j & _ & _ & _ & _ & ->); [lia|lia|eauto]. }
  exists progs1. split; [done|]. pose proof (mapM_Some_1 _ _ _ Hpr) as HF. split.
  - intros prog op Hp Hop. apply elem_of_list_lookup in Hp as [t Ht]. destruct (Forall2_lookup_r _ _ _ _ _ HF Ht) as (p & Hp & Efp).
    apply lookup_seq in Hp as [-> Hlt]. destruct (Hf (1 + t)) as (i & j & Hi & Hj & Hin & Hjn & Efp'); [lia|lia|]. rewrite Efp in Efp'. injection Efp' as ->.
    destruct (Nat.eqb_spec (cell i) (cell j)) as [Ec|]; [|by apply elem_of_nil in Hop]. apply elem_of_list_singleton in Hop as ->.
    exists i, j. do 3 (split; [done|]). apply HE; [done|done|]. split; [eapply (core_dense (1 + t)); [lia|done]|]. split; [eapply (core_dense (1 + t - 1)); [lia|done]|].
    by apply HCC.
  - intros p i j H1 H2 Hi Hj Ec. destruct (Hf p) as (i' & j' & Hi' & Hj' & _ & _ & Efp); [lia|lia|]. assert (i' = i) by congruence. assert (j' = j) by congruence. subst.
    destruct (Forall2_lookup_l _ _ _ (p - 1) p HF) as (prog & Hp & Efp'); [apply lookup_seq; lia|].
    rewrite Efp in Efp'. injection Efp' as <-. eexists. split; [by eapply elem_of_list_lookup_2|].
    destruct (Nat.eqb_spec (cell i) (cell j)); [|done]. left.
Qed.

(** *** Second kernel *)
Notation block := (mixed_block near pm dco nd star swap core).
Notation ncb := (mixed_callback near pm dco nd star swap core).
Definition blk (i k : nat) : list uop := default [] (block i k).
Lemma blk_dense i k : k < ndc -> exists f, f ∈ segment dco pm k /\ f < n /\
   block i k = Some (uguard swap i f (length (cell_loop near swap i (segment dco pm k))) :: cell_loop near swap i (segment dco pm k)).
Proof.
  intros Hk. destruct (dco_at k Hk) as (a & b & Ha & Hb & Hlt & Hle). pose proof (ly_nd _ _ _ _ _ _ _ _ LY).
  destruct (pm_at a) as (f & Hf & Hfn & _); [lia|]. exists f. split; [apply seg_elem; [done|]; exists a, b, a; repeat split; auto; lia|]. split; [done|].
  unfold mixed_block. destruct (Nat.ltb_spec k ndc); [|lia]. rewrite Ha. simpl. rewrite Hf. simpl. rewrite cell_points_ok by done. done.
Qed.
Lemma blk_sparse i k : ndc <= k -> k < m -> exists j, pm !! (nd + (k - ndc)) = Some j /\ j < n /\ (forall q, leaf q k = near q j) /\
  block i k = Some (if core j && (j <? i) then [Merge i j] else if negb star && negb (core j) then [Into j i] else []).
Proof.
  intros H1 H2. unfold num_mixed in H2. pose proof (ly_nd _ _ _ _ _ _ _ _ LY).
  destruct (pm_at (nd + (k - ndc))) as (j & Hj & Hjn & _); [lia|]. exists j. split; [done|]. split; [done|]. split.
  - intros q. unfold mixed_leaf. destruct (Nat.ltb_spec k ndc); [lia|]. by rewrite Hj.
  - unfold mixed_block. destruct (Nat.ltb_spec k ndc); [lia|]. rewrite Hj. done.
Qed.
Lemma blk_some i k : k < m -> block i k = Some (blk i k).
Proof.
  intros Hk. unfold blk. destruct (Nat.lt_ge_cases k ndc) as [H|H].
  - destruct (blk_dense i k H) as (f & _ & _ & ->). done.
  - destruct (blk_sparse i k H Hk) as (j & _ & _ & _ & ->). done.
Qed.
Lemma visits_core i : core i = true -> forall calls ops st' e, (forall k, k ∈ calls -> k < m) -> Visits (ncb i) (Some ops) calls st' e ->
  st' = Some (ops ++ concat (map (blk i) calls)) /\ e = false.
Proof.
  intros Hc. induction calls as [|k calls IH]; intros ops st' e Hk H; inversion H as [|? ? ? Hcb|? ? ? ? ? ? Hcb HV]; subst.
  - simpl. by rewrite app_nil_r.
  - unfold mixed_callback in Hcb. rewrite Hc in Hcb. injection Hcb as _ Hcb. done.
  - unfold mixed_callback in Hcb. rewrite Hc in Hcb. simpl in Hcb. rewrite (blk_some i k) in Hcb by (apply Hk; left). simpl in Hcb. injection Hcb as <-.
    destruct (IH _ _ _ (fun x Hx => Hk x (elem_of_list_further _ _ _ Hx)) HV) as [-> ->]. simpl. by rewrite app_assoc.
Qed.
Lemma visits_border i : core i = false -> forall calls st st' e, Visits (ncb i) st calls st' e -> st' = st.
Proof.
  intros Hc. induction calls as [|k calls IH]; intros st st' e H; inversion H as [|? ? ? Hcb|? ? ? ? ? ? Hcb HV]; subst; auto;
    unfold mixed_callback in Hcb; rewrite Hc in Hcb; by injection Hcb.
Qed.

Definition prog_of (tperm : list nat) (i : nat) : list uop :=
  if core i then concat (map (blk i) (List.filter (leaf i) tperm)) else [].
Lemma progs_exist {V} (le : V -> V -> Prop) vol tperm T pv i : Index le vol tperm T -> tperm ≡ₚ seq 0 m -> PruneSafe le vol (leaf i) (pv i) ->
  spatial_query T (leaf i) (pv i) (ncb i) (Some []) = Ok (Some (prog_of tperm i)).
Proof.
  intros HI HP HS. destruct (spatial_query_correct le vol tperm T (leaf i) (pv i) (ncb i) HI HS (Some [])) as (calls & rest & st' & e & Eq & HF & HV & He).
  rewrite Eq. do 2 f_equal. unfold prog_of. destruct (core i) eqn:Ec.
  - destruct (visits_core i Ec calls [] st' e) as [-> ->]; [|done|].
    + intros k Hk. assert (k ∈ List.filter (leaf i) tperm) as H by (rewrite HF; apply elem_of_app; by left). apply elem_filter in H as [H _].
      rewrite HP in H. apply elem_of_seq in H. lia.
    + rewrite HF, (He eq_refl), app_nil_r. done.
  - by rewrite (visits_border i Ec _ _ _ _ HV).
Qed.

Lemma seg_dense k j : k < ndc -> j ∈ segment dco pm k -> j < n /\ core j = true.
Proof.
  intros Hk Hj. pose proof (ly_nd _ _ _ _ _ _ _ _ LY). apply seg_elem in Hj as (a & b & p & Ha & Hb & Hp & Hj); [|done].
  destruct (dco_at k Hk) as (a' & b' & Ha' & Hb' & Hlt & Hle). assert (b' = b) by congruence. subst.
  split; [|eapply (core_dense p); [lia|done]]. destruct (pm_at p) as (i & Hi & Hin & _); [lia|]. congruence.
Qed.
Lemma cell_loop_ops i pts op : i < n -> core i = true -> (forall j, j ∈ pts -> j < n /\ core j = true) -> op ∈ cell_loop near swap i pts ->
  op_ok n C (Conn E) op /\ (forall x y, op <> Into x y).
Proof.
  intros Hi Hc. induction pts as [|j pts IH]; intros HP Hop; [by apply elem_of_nil in Hop|]. simpl in Hop.
  destruct (HP j) as [Hj Hcj]; [left|].
  assert (forall k, op_ok n C (Conn E) (uguard swap i j k) /\ forall x y, uguard swap i j k <> Into x y) as HG.
  { intros k. unfold uguard. destruct swap; simpl; split; try done. }
  destruct (near i j) eqn:En.
  - apply elem_of_cons in Hop as [->|Hop]; [apply HG|]. apply elem_of_list_singleton in Hop as ->. split; [|done]. simpl. do 2 (split; [done|]).
    apply rst_step. apply HE; auto.
  - apply elem_of_cons in Hop as [->|Hop]; [apply HG|]. apply IH; [|done]. intros x Hx. apply HP. by right.
Qed.
Lemma blk_ops i k op : i < n -> core i = true -> k < m -> leaf i k = true -> op ∈ blk i k ->
  op_ok n C (Conn E) op /\ (forall x j, op = Into x j -> star = false /\ core x = false /\ j = i /\ near x i = true).
Proof.
  intros Hi Hc Hk Hl Hop. unfold blk in Hop. destruct (Nat.lt_ge_cases k ndc) as [H|H].
  - destruct (blk_dense i k H) as (f & Hf & Hfn & Eb). rewrite Eb in Hop. simpl in Hop. destruct (seg_dense k f H Hf) as [_ Hcf].
    apply elem_of_cons in Hop as [->|Hop].
    + unfold uguard. by destruct swap.
    + destruct (cell_loop_ops i _ op Hi Hc (fun j Hj => seg_dense k j H Hj) Hop) as [H1 H2]. split; [done|]. intros x j ->. by destruct (H2 x j).
  - destruct (blk_sparse i k H Hk) as (j & Hj & Hjn & HL & Eb). rewrite Eb in Hop. simpl in Hop. unfold id in Hop. rewrite HL in Hl.
    destruct (core j) eqn:Ej; simpl in Hop.
    + destruct (j <? i); [|by rewrite andb_false_r in Hop; apply elem_of_nil in Hop]. apply elem_of_list_singleton in Hop as ->. split; [|done].
      simpl. do 2 (split; [done|]). apply rst_step. by apply HE.
    + destruct star; simpl in Hop; [by apply elem_of_nil in Hop|]. apply elem_of_list_singleton in Hop as ->. split; [simpl; rewrite Ej; done|].
      intros x y [= <- <-]. rewrite near_sym. done.
Qed.
Lemma prog_ops tperm i op : tperm ≡ₚ seq 0 m -> i < n -> op ∈ prog_of tperm i ->
  op_ok n C (Conn E) op /\ (forall x j, op = Into x j -> star = false /\ core x = false /\ core j = true /\ near x j = true).
Proof.
  intros HP Hi Hop. unfold prog_of in Hop. destruct (core i) eqn:Ec; [|by apply elem_of_nil in Hop].
  apply elem_of_list_In, in_concat in Hop as (b & Hb & Hop). apply in_map_iff in Hb as (k & <- & Hk). apply elem_of_list_In in Hk, Hop.
  apply elem_filter in Hk as [Hk Hl]. rewrite HP in Hk. apply elem_of_seq in Hk.
  destruct (blk_ops i k op Hi Ec) as [H1 H2]; [lia|done|done|]. split; [done|]. intros x j E'. destruct (H2 x j E') as (? & ? & -> & ?). done.
Qed.

(** what the executed program guarantees *)
Lemma loop_exec l i pts q : Exec C l (cell_loop near swap i pts ++ q) [] ->
  Exec C l q [] /\ ((exists j, j ∈ pts /\ root l i = root l j) \/ (forall j, j ∈ pts -> near i j = false)).
Proof.
  revert q. induction pts as [|j pts IH]; intros q H; simpl in H.
  - split; [done|]. right. intros j Hj. by apply elem_of_nil in Hj.
  - assert (forall k p, Exec C l (uguard swap i j k :: p) [] -> Exec C l p [] \/ (root l i = root l j /\ Exec C l (drop k p) [])) as HG.
    { intros k p Hg. unfold uguard in Hg. destruct swap; inversion Hg; subst; auto. }
    destruct (near i j) eqn:En; simpl in H.
    + destruct (HG _ _ H) as [H'|[HR H']].
      * inversion H' as [|? ? ? ? HR H''| | |]; subst. split; [done|]. left. exists j. split; [left|done].
      * simpl in H'. rewrite drop_0 in H'. split; [done|]. left. exists j. split; [left|done].
    + destruct (HG _ _ H) as [H'|[HR H']].
      * destruct (IH _ H') as [H1 [(j' & Hj' & HR)|HN]]; (split; [done|]).
        -- left. exists j'. split; [by right|done].
        -- right. intros j' Hj'. apply elem_of_cons in Hj' as [->|Hj']; auto.
      * rewrite drop_app in H'. split; [done|]. left. exists j. split; [left|done].
Qed.
Lemma blk_exec l i k q : k < m -> Exec C l (blk i k ++ q) [] -> Exec C l q [] /\
  (k < ndc -> (exists j, j ∈ segment dco pm k /\ root l i = root l j) \/ (forall j, j ∈ segment dco pm k -> near i j = false)) /\
  (forall j, ndc <= k -> pm !! (nd + (k - ndc)) = Some j ->
     (core j = true -> j < i -> root l i = root l j) /\ (star = false -> core j = false -> C (lab l j))).
Proof.
  intros Hk H. unfold blk in H. destruct (Nat.lt_ge_cases k ndc) as [Hkd|Hkd].
  - destruct (blk_dense i k Hkd) as (f & Hf & _ & Eb). rewrite Eb in H. simpl in H.
    assert (Exec C l (cell_loop near swap i (segment dco pm k) ++ q) [] \/ (root l i = root l f /\ Exec C l q [])) as [H'|[HR H']].
    { unfold uguard in H. destruct swap; inversion H; subst; auto; rewrite drop_app in *; auto. }
    + destruct (loop_exec l i _ q H') as [H1 H2]. split; [done|]. split; [auto|]. intros. lia.
    + split; [done|]. split; [|intros; lia]. intros _. left. eauto.
  - destruct (blk_sparse i k Hkd Hk) as (j & Hj & _ & _ & Eb). rewrite Eb in H. simpl in H. unfold id in H.
    destruct (core j) eqn:Ec; simpl in H.
    + destruct (Nat.ltb_spec j i) as [Hlt|Hge].
      * simpl in H. inversion H as [|? ? ? ? HR H'| | |]; subst. split; [done|]. split; [lia|]. intros j' _ Hj'. assert (j' = j) by congruence. subst. split; [done|congruence].
      * rewrite andb_false_r in H. simpl in H. split; [done|]. split; [lia|]. intros j' _ Hj'. assert (j' = j) by congruence. subst. split; [lia|congruence].
    + destruct star; simpl in H.
      * split; [done|]. split; [lia|]. intros j' _ Hj'. assert (j' = j) by congruence. subst. split; congruence.
      * inversion H as [| |? ? ? ? HR H'| |]; subst. split; [done|]. split; [lia|]. intros j' _ Hj'. assert (j' = j) by congruence. subst. split; [congruence|done].
Qed.
Lemma prog_exec l tperm i k : tperm ≡ₚ seq 0 m -> core i = true -> Exec C l (prog_of tperm i) [] -> k < m -> leaf i k = true ->
  (k < ndc -> (exists j, j ∈ segment dco pm k /\ root l i = root l j) \/ (forall j, j ∈ segment dco pm k -> near i j = false)) /\
  (forall j, ndc <= k -> pm !! (nd + (k - ndc)) = Some j ->
     (core j = true -> j < i -> root l i = root l j) /\ (star = false -> core j = false -> C (lab l j))).
Proof.
  intros HP Hc H Hk Hl. unfold prog_of in H. rewrite Hc in H.
  assert (k ∈ List.filter (leaf i) tperm) as Hin by (apply elem_filter; split; [rewrite HP; apply elem_of_seq; lia|done]).
  assert (forall x, x ∈ List.filter (leaf i) tperm -> x < m) as HB by (intros x Hx; apply elem_filter in Hx as [Hx _]; rewrite HP in Hx; apply elem_of_seq in Hx; lia).
  revert Hin HB H. generalize (List.filter (leaf i) tperm). intros L. induction L as [|x L IH]; intros Hin HB H; [by apply elem_of_nil in Hin|].
  simpl in H. destruct (blk_exec l i x _ (HB x ltac:(left)) H) as (H1 & H2). apply elem_of_cons in Hin as [->|Hin]; [done|].
  apply IH; auto. intros y Hy. apply HB. by right.
Qed.

(** both kernels *)
Lemma both_kernels tperm L1 s : tperm ≡ₚ seq 0 m ->
  (forall p i j, p < nd -> 1 <= p -> pm !! p = Some i -> pm !! (p - 1) = Some j -> cell i = cell j -> root L1 i = root L1 j) ->
  up n C L1 (u_labels s) -> (forall i, i < n -> Exec C (u_labels s) (prog_of tperm i) []) ->
  (forall a b, E a b -> root (u_labels s) a = root (u_labels s) b) /\
  (star = false -> forall x j, x < n -> j < n -> core x = false -> core j = true -> near x j = true -> C (lab (u_labels s) x)).
Proof.
  intros HP H1 U HX. set (l := u_labels s) in *. pose proof (ly_nd _ _ _ _ _ _ _ _ LY) as Hnd.
  assert (forall k i j, k < ndc -> i ∈ segment dco pm k -> j ∈ segment dco pm k -> root l i = root l j) as Hseg.
  { intros k. assert (k < ndc -> forall a b, dco !! k = Some a -> dco !! S k = Some b -> forall fa, pm !! a = Some fa -> forall d p i, p = a + d -> p < b -> pm !! p = Some i ->
        cell i = cell fa /\ root L1 i = root L1 fa) as Hd.
    { intros Hk a b Ha Hb fa Hfa. destruct (dco_at k Hk) as (a' & b' & Ha' & Hb' & Hlt & Hle). assert (a' = a) by congruence. assert (b' = b) by congruence. subst.
      induction d as [|d IH]; intros p i -> Hp Hi.
      - rewrite Nat.add_0_r in Hi. assert (i = fa) by congruence. by subst.
      - destruct (pm_at (a + d)) as (j & Hj & _ & _); [lia|]. destruct (IH (a + d) j eq_refl) as [Ec ER]; [lia|done|].
        assert (cell i = cell fa) as Ec'.
        { assert (take nd idx !! a = Some (cell fa)) as V1 by (rewrite lookup_take by lia; by apply (ly_cell _ _ _ _ _ _ _ _ LY)).
          assert (take nd idx !! (a + S d) = Some (cell i)) as V2 by (rewrite lookup_take by lia; by apply (ly_cell _ _ _ _ _ _ _ _ LY)).
          symmetry. apply (ru_eq _ _ (ly_runs _ _ _ _ _ _ _ _ LY) k a b (a + S d) _ _ Ha Hb ltac:(lia) V1 V2). }
        split; [done|]. rewrite <- ER. apply (H1 (a + S d)); [lia|lia|done|replace (a + S d - 1) with (a + d) by lia; done|congruence]. }
    intros i j Hk Hi Hj. destruct (seg_dense k i Hk Hi) as [Hin Hic]. destruct (seg_dense k j Hk Hj) as [Hjn Hjc].
    apply (up_core _ _ _ _ U); auto.
    apply seg_elem in Hi as (a & b & p & Ha & Hb & Hp & Hi); [|done]. apply seg_elem in Hj as (a' & b' & p' & Ha' & Hb' & Hp' & Hj); [|done].
    assert (a' = a) by congruence. assert (b' = b) by congruence. subst.
    destruct (dco_at k Hk) as (a' & b' & Ha'' & Hb'' & Hlt & Hle). assert (a' = a) by congruence. assert (b' = b) by congruence. subst.
    destruct (pm_at a) as (fa & Hfa & _); [lia|].
    destruct (Hd Hk a b Ha Hb fa Hfa (p - a) p i) as [_ ->]; [lia|lia|done|]. destruct (Hd Hk a b Ha Hb fa Hfa (p' - a) p' j) as [_ ->]; [lia|lia|done|]. done. }
  assert (forall a b pb, a < n -> core a = true -> near a b = true -> pb < nd -> pm !! pb = Some b -> root l a = root l b) as Hdense.
  { intros a b pb Ha Hca Hn Hpb Hb. destruct (dense_seg pb b Hpb Hb) as (k & Hk & Hin & _ & HL).
    assert (leaf a k = true) as Hl by (rewrite HL; by apply HCC).
    assert (k < m) as Hkm by (unfold num_mixed; lia).
    destruct (prog_exec l tperm a k HP Hca (HX a Ha) Hkm Hl) as [H2 _]. destruct (H2 Hk) as [(j & Hj & HR)|HN].
    - rewrite HR. by apply (Hseg k).
    - rewrite (HN b Hin) in Hn. done. }
  assert (forall a b pb, a < n -> core a = true -> near a b = true -> nd <= pb -> pb < n -> pm !! pb = Some b ->
    (core b = true -> b < a -> root l a = root l b) /\ (star = false -> core b = false -> C (lab l b))) as Hsparse.
  { intros a b pb Ha Hca Hn Hpb Hpn Hb. destruct (sparse_prim pb b Hpb Hpn Hb) as (k & Hk & Hkm & Ek & HL).
    destruct (prog_exec l tperm a k HP Hca (HX a Ha) Hkm) as [_ H2]; [by rewrite HL|]. apply (H2 b Hk). rewrite Ek; done. }
  split.
  - intros a b Hab. destruct (core_lt' _ _ Hab) as [Ha Hb]. apply HE in Hab as (Hca & Hcb & Hn); [|done|done].
    destruct (pm_pos a Ha) as (pa & Hpa & Ea). destruct (pm_pos b Hb) as (pb & Hpb & Eb).
    destruct (Nat.lt_ge_cases pb nd) as [Hdb|Hdb]; [by eapply Hdense|]. destruct (Nat.lt_ge_cases pa nd) as [Hda|Hda].
    { symmetry. eapply Hdense; eauto; by rewrite near_sym. }
    destruct (Nat.lt_trichotomy a b) as [Hlt|[->|Hgt]]; [|done|].
    + symmetry. eapply (Hsparse b a pa); eauto; by rewrite near_sym.
    + eapply (Hsparse a b pb); eauto.
  - intros Hs x j Hx Hj Hcx Hcj Hn. destruct (pm_pos x Hx) as (px & Hpx & Ex).
    destruct (Nat.lt_ge_cases px nd) as [Hd|Hd]; [by rewrite (core_dense px x Hd Ex) in Hcx|].
    eapply (Hsparse j x px); eauto; by rewrite near_sym.
Qed.
End Kernels.

(** ** Counting neighbours *)
Section Counting.
Variables (near hit : nat -> nat -> bool) (cell : nat -> nat) (n minpts : nat) (idx pm dco : list nat) (nd : nat).
Hypothesis near_sym : forall a b, near a b = near b a.
Hypothesis HCC : CellContract near hit cell.
Hypothesis LY : Layout near cell n minpts idx pm dco nd.
Notation ndc := (num_dense_cells dco).
Notation m := (num_mixed dco nd n).
Notation leaf := (mixed_leaf near hit idx pm dco nd).

Definition prim_pts (k : nat) : list nat :=
  if k <? ndc then segment dco pm k else [default 0 (pm !! (nd + (k - ndc)))].
Definition weight (i k : nat) : nat := length (List.filter (near i) (prim_pts k)).

Lemma prims_all : concat (map prim_pts (seq 0 m)) = pm.
Proof.
  pose proof (ly_nd _ _ _ _ _ _ _ _ LY) as Hnd. pose proof (pm_len near cell n minpts idx pm dco nd LY) as HL.
  assert (CellOffsets dco nd) as HO by (eapply dco_offsets; eauto).
  unfold num_mixed. rewrite seq_app, map_app, concat_app. etransitivity; [|exact (take_drop nd pm)]. f_equal.
  - rewrite <- (segments_take dco nd) by done. f_equal. apply map_ext_in. intros k Hk. apply in_seq in Hk. unfold prim_pts.
    destruct (Nat.ltb_spec k ndc); [done|]. unfold num_dense_cells in *. lia.
  - assert (forall l, (forall k, In k l -> ndc <= k) -> concat (map prim_pts l) = map (fun k => default 0 (pm !! (nd + (k - ndc)))) l) as H.
    { induction l as [|k l IH]; intros Hl; [done|]. simpl. rewrite IH by (intros; apply Hl; by right). unfold prim_pts.
      destruct (Nat.ltb_spec k ndc); [|done]. pose proof (Hl k ltac:(by left)). lia. }
    rewrite H by (intros k Hk; apply in_seq in Hk; lia). apply list_eq. intros q. rewrite lookup_drop.
    change (map (fun k => default 0 (pm !! (nd + (k - ndc))))) with (fmap (M:=list) (fun k => default 0 (pm !! (nd + (k - ndc))))). rewrite list_lookup_fmap.
    destruct (Nat.lt_ge_cases q (n - nd)) as [Hq|Hq].
    + rewrite lookup_seq_lt by done. simpl. replace (nd + (ndc + q - ndc)) with (nd + q) by lia.
      destruct (lookup_lt_is_Some_2 pm (nd + q)) as [x ->]; [lia|]. done.
    + rewrite lookup_seq_ge by done. simpl. symmetry. apply lookup_ge_None. lia.
Qed.
Lemma filter_concat {A B} (f : A -> bool) (g : B -> list A) l : length (List.filter f (concat (map g l))) = sum_list_with (fun k => length (List.filter f (g k))) l.
Proof. induction l as [|k l IH]; simpl; [done|]. by rewrite List.filter_app, app_length, IH. Qed.

Lemma leaf_weight i k : k < m -> leaf i k = false -> weight i k = 0.
Proof.
  intros Hk Hl. unfold weight, prim_pts. unfold mixed_leaf in Hl. destruct (Nat.ltb_spec k ndc) as [H|H]; [|simpl; by rewrite Hl].
  assert (forall l, (forall j, j ∈ l -> near i j = false) -> length (List.filter (near i) l) = 0) as HF.
  { induction l as [|j l IH]; intros HN; [done|]. simpl. rewrite HN by left. apply IH. intros. apply HN. by right. }
  apply HF. intros j Hj. destruct (near i j) eqn:En; [|done]. pose proof (proj2 HCC i j En) as Hh.
  assert (exists p, p < nd /\ pm !! p = Some j /\ exists a b, dco !! k = Some a /\ dco !! S k = Some b /\ a <= p < b) as (p & Hp & Epj & a & b & Ha & Hb & Hab).
  { destruct (seg_elem near cell n minpts idx pm dco nd near_sym LY k j H) as [HS _]. destruct (HS Hj) as (a & b & p & Ha & Hb & Hp & Epj).
    destruct (dco_at near cell n minpts idx pm dco nd near_sym LY k H) as (a' & b' & Ha' & Hb' & Hlt & Hle).
    exists p. assert (b' = b) by congruence. subst. split; [lia|]. eauto 10. }
  rewrite Ha in Hl. simpl in Hl. unfold id in Hl. pose proof (ly_nd _ _ _ _ _ _ _ _ LY) as Hnd.
  destruct (pm_at near cell n minpts idx pm dco nd near_sym LY a) as (fa & Efa & _ & Eia); [lia|]. rewrite Eia in Hl. simpl in Hl. unfold id in Hl.
  assert (take nd idx !! a = Some (cell fa)) as V1 by (rewrite lookup_take by lia; done).
  assert (take nd idx !! p = Some (cell j)) as V2 by (rewrite lookup_take by lia; by apply (ly_cell _ _ _ _ _ _ _ _ LY)).
  assert (cell fa = cell j) as Ec by (apply (ru_eq _ _ (ly_runs _ _ _ _ _ _ _ _ LY) k a b p _ _ Ha Hb Hab V1 V2)).
  rewrite Ec, Hh in Hl. done.
Qed.
Lemma sum_filter {A} (f : A -> bool) (w : A -> nat) l : (forall k, k ∈ l -> f k = false -> w k = 0) -> sum_list_with w (List.filter f l) = sum_list_with w l.
Proof.
  induction l as [|k l IH]; intros H; [done|]. simpl. assert (sum_list_with w (List.filter f l) = sum_list_with w l) as <- by (apply IH; intros; apply H; [by right|done]).
  destruct (f k) eqn:Ef; [done|]. rewrite (H k); [done|left|done].
Qed.
Lemma sum_perm {A} (w : A -> nat) l l' : l ≡ₚ l' -> sum_list_with w l = sum_list_with w l'.
Proof. induction 1; simpl; lia. Qed.

Lemma count_pts_ok i : forall pts c c' e, count_pts near minpts i c pts = (c', e) ->
  (e = true -> minpts <= c') /\ c' <= c + length (List.filter (near i) pts) /\ (e = false -> c' = c + length (List.filter (near i) pts)).
Proof.
  induction pts as [|j pts IH]; intros c c' e H; simpl in *.
  - injection H as <- <-. split; [done|]. split; [lia|]. lia.
  - destruct (near i j); simpl.
    + destruct (Nat.leb_spec minpts (S c)).
      * injection H as <- <-. split; [done|]. split; [lia|done].
      * destruct (IH _ _ _ H) as (H1 & H2 & H3). split; [done|]. split; [lia|]. intros He. rewrite (H3 He). lia.
    + by apply IH.
Qed.
Lemma count_mixed_visits i : forall calls c st' e, (forall k, k ∈ calls -> k < m /\ leaf i k = true) ->
  Visits (count_mixed near pm dco minpts i) (Some c) calls st' e ->
  exists c', st' = Some c' /\ (e = true -> minpts <= c') /\ c' <= c + sum_list_with (weight i) calls /\ (e = false -> c' = c + sum_list_with (weight i) calls).
Proof.
  assert (forall c k, k < m -> leaf i k = true -> exists c' e, count_mixed near pm dco minpts i (Some c) k = (Some c', e) /\
     (e = true -> minpts <= c') /\ c' <= c + weight i k /\ (e = false -> c' = c + weight i k)) as Hstep.
  { intros c k Hk Hl. unfold count_mixed, weight, prim_pts. destruct (Nat.ltb_spec k ndc) as [H|H].
    - rewrite (cell_points_ok near cell n minpts idx pm dco nd near_sym LY k H). destruct (count_pts near minpts i c (segment dco pm k)) as [c' e] eqn:Ec.
      exists c', e. split; [done|]. by apply count_pts_ok.
    - exists (S c), (minpts <=? S c). unfold mixed_leaf in Hl. destruct (Nat.ltb_spec k ndc); [lia|]. simpl. rewrite Hl. simpl.
      split; [done|]. split; [apply Nat.leb_le|]. split; [lia|]. lia. }
  induction calls as [|k calls IH]; intros c st' e HK H; inversion H as [|? ? ? Hcb|? ? ? ? ? ? Hcb HV]; subst.
  - exists c. simpl. split; [done|]. split; [done|]. split; [lia|]. lia.
  - destruct (HK k) as [H1 H2]; [left|]. destruct (Hstep c k H1 H2) as (c' & e' & Es & Ht & Hle & _). rewrite Es in Hcb. injection Hcb as <- ->.
    exists c'. split; [done|]. split; [done|]. simpl. split; [lia|done].
  - destruct (HK k) as [H1 H2]; [left|]. destruct (Hstep c k H1 H2) as (c' & e' & Es & _ & Hle & Hf). rewrite Es in Hcb. injection Hcb as <- ->.
    destruct (IH c' st' e (fun x Hx => HK x (elem_of_list_further _ _ _ Hx)) HV) as (c'' & -> & G1 & G2 & G3). exists c''. split; [done|]. split; [done|].
    simpl. specialize (Hf eq_refl). split; [lia|]. intros He. rewrite (G3 He). lia.
Qed.
Lemma count_ok {V} (le : V -> V -> Prop) vol tperm T pv i : Index le vol tperm T -> tperm ≡ₚ seq 0 m -> PruneSafe le vol (leaf i) (pv i) ->
  exists c, spatial_query T (leaf i) (pv i) (count_mixed near pm dco minpts i) (Some 0) = Ok (Some c) /\
    (minpts <= c <-> minpts <= length (List.filter (near i) (seq 0 n))).
Proof.
  intros HI HP HS. destruct (spatial_query_correct le vol tperm T (leaf i) (pv i) (count_mixed near pm dco minpts i) HI HS (Some 0)) as (calls & rest & st' & e & Eq & HF & HV & He).
  destruct (count_mixed_visits i calls 0 st' e) as (c & -> & H1 & H2 & H3); [|done|].
  { intros k Hk. assert (k ∈ List.filter (leaf i) tperm) as H by (rewrite HF; apply elem_of_app; by left). apply elem_filter in H as [H ?].
    rewrite HP in H. apply elem_of_seq in H. split; [lia|done]. }
  exists c. split; [done|].
  assert (length (List.filter (near i) (seq 0 n)) = sum_list_with (weight i) (calls ++ rest)) as ->.
  { rewrite <- HF, sum_filter.
    - rewrite (sum_perm _ _ _ HP). unfold weight. rewrite <- filter_concat, prims_all. apply Permutation_length, filter_perm. symmetry. apply LY.
    - intros k Hk. rewrite HP in Hk. apply elem_of_seq in Hk. apply leaf_weight. lia. }
  rewrite sum_list_with_app. destruct e.
  - specialize (H1 eq_refl). split; lia.
  - rewrite (He eq_refl), (H3 eq_refl). simpl. split; lia.
Qed.
End Counting.

Lemma DenseCounts_exist V (le : V -> V -> Prop) vol tperm T near hit pv cell n minpts big idx pm dco nd :
  (forall a b, near a b = near b a) -> CellContract near hit cell -> Layout near cell n minpts idx pm dco nd -> minpts <= big -> 1 <= minpts ->
  Index le vol tperm T -> tperm ≡ₚ seq 0 (num_mixed dco nd n) -> (forall i, PruneSafe le vol (mixed_leaf near hit idx pm dco nd i) (pv i)) ->
  exists counts, DenseCounts near hit pv n minpts big idx pm dco nd T counts /\
    forall i, is_core counts minpts i = true <-> Core n minpts near i.
Proof.
  intros Hsym HCC LY Hbig Hm HI HP HS.
  set (q i := match spatial_query T (mixed_leaf near hit idx pm dco nd i) (pv i) (count_mixed near pm dco minpts i) (Some 0) with Ok (Some c) => c | _ => 0 end).
  set (f i := if bool_decide (i ∈ take nd pm) then big else q i).
  assert (NoDup pm) as HN by (rewrite (ly_perm _ _ _ _ _ _ _ _ LY); apply NoDup_seq).
  assert (forall p i, pm !! p = Some i -> i < n) as Hlt.
  { intros p i Hi. apply elem_of_list_lookup_2 in Hi. rewrite (ly_perm _ _ _ _ _ _ _ _ LY) in Hi. apply elem_of_seq in Hi. lia. }
  assert (forall i, i < n -> map f (seq 0 n) !! i = Some (f i)) as Hat.
  { intros i Hi. change (map f (seq 0 n)) with (f <$> seq 0 n). rewrite list_lookup_fmap, lookup_seq_lt by done. done. }
  assert (forall p i, pm !! p = Some i -> (i ∈ take nd pm <-> p < nd)) as Hmem.
  { intros p i Hi. rewrite elem_of_take. split; [intros (p' & Hp' & ?); rewrite (NoDup_lookup pm p p' i HN Hi Hp'); done|]. eauto. }
  assert (forall p i, pm !! p = Some i -> nd <= p -> exists c, f i = c /\ q i = c /\
     spatial_query T (mixed_leaf near hit idx pm dco nd i) (pv i) (count_mixed near pm dco minpts i) (Some 0) = Ok (Some c) /\
     (minpts <= c <-> minpts <= length (List.filter (near i) (seq 0 n)))) as Hsp.
  { intros p i Hi Hp. destruct (count_ok near hit cell n minpts idx pm dco nd Hsym HCC LY le vol tperm T pv i HI HP (HS i)) as (c & Eq & Hc).
    exists c. assert (q i = c) as Eqi by (unfold q; by rewrite Eq). split; [|done]. unfold f. rewrite bool_decide_false; [done|]. rewrite (Hmem p i Hi). lia. }
  exists (map f (seq 0 n)). split.
  - split; [by rewrite map_length, seq_length|]. intros p i Hi. specialize (Hat i (Hlt p i Hi)). destruct (Nat.ltb_spec p nd) as [H|H].
    + rewrite Hat. unfold f. rewrite bool_decide_true; [done|]. by apply (Hmem p i Hi).
    + destruct (Hsp p i Hi H) as (c & E1 & E2 & E3 & _). exists c. split; [congruence|done].
  - intros i. unfold is_core. rewrite Nat.leb_le. destruct (Nat.lt_ge_cases i n) as [Hi|Hi].
    + rewrite (Hat i Hi). simpl. unfold id. destruct (pm_pos near cell n minpts idx pm dco nd Hsym LY i Hi) as (p & Hp & Epi).
      destruct (Nat.lt_ge_cases p nd) as [H|H].
      * unfold f. rewrite bool_decide_true by (by apply (Hmem p i Epi)). split; [|lia]. intros _. by eapply (ly_dense _ _ _ _ _ _ _ _ LY).
      * destruct (Hsp p i Epi H) as (c & -> & _ & _ & Hc). rewrite Hc. unfold Core. tauto.
    + assert (map f (seq 0 n) !! i = None) as -> by (apply lookup_ge_None; rewrite map_length, seq_length; done). simpl. unfold Core. lia.
Qed.

Lemma MixedProgs_seq (n : nat) (P : nat -> list uop -> Prop) (f : nat -> list uop) : (forall i, i < n -> P i (f i)) -> Forall2 P (seq 0 n) (map f (seq 0 n)).
Proof.
  intros H. apply Forall2_fmap_r, Forall_Forall2_diag, Forall_forall. intros i Hi. apply elem_of_seq in Hi. apply H. lia.
Qed.

(** After both union-find kernels. *)
Section Final.
Context {V : Type}.
Variables (le : V -> V -> Prop) (near hit : nat -> nat -> bool) (pv : nat -> V -> bool) (cell : nat -> nat) (n minpts big : nat) (idx pm dco : list nat) (nd : nat).
Variables (cellvol ptvol : nat -> V).
Hypothesis near_sym : forall a b, near a b = near b a.
Hypothesis near_refl : forall a, near a a = true.
Hypothesis HCC : CellContract near hit cell.
Hypothesis LY : Layout near cell n minpts idx pm dco nd.
Hypothesis Hbig : minpts <= big.
Hypothesis Hmin : 2 <= minpts.
Hypothesis PSc : forall i c v, le (cellvol c) v -> hit i c = true -> pv i v = true.
Hypothesis PSp : forall i j v, le (ptvol j) v -> near i j = true -> pv i v = true.
Notation m := (num_mixed dco nd n).

Lemma mixed_prune i : PruneSafe le (mixed_vol idx pm dco nd cellvol ptvol) (mixed_leaf near hit idx pm dco nd i) (pv i).
Proof. intros k v. unfold mixed_vol, mixed_leaf. destruct (k <? _); eauto. Qed.

(** generic part: [core] is the notion of core point the kernels use *)
Lemma kernels_generic (star swap : bool) (core : nat -> bool) (E : nat -> nat -> Prop) (rest : list (list uop) -> ustate -> tree V -> list nat -> Prop) :
  (forall p i, p < nd -> pm !! p = Some i -> core i = true) -> (forall a b, E a b -> a < n /\ b < n) ->
  (forall a b, a < n -> b < n -> (E a b <-> core a = true /\ core b = true /\ near a b = true)) ->
  (forall progs2 s2 T tperm,
     GoodL n (fun c : nat => core c = true) (Conn E) progs2 (u_labels s2) ->
     (forall a b, E a b -> root (u_labels s2) a = root (u_labels s2) b) ->
     (forall prog x j, prog ∈ progs2 -> Into x j ∈ prog -> star = false /\ near x j = true /\ core j = true) ->
     (star = false -> forall x, x < n -> core x = false -> (exists j, core j = true /\ j < n /\ near x j = true) -> core (lab (u_labels s2) x) = true) ->
     rest progs2 s2 T tperm) ->
  exists progs1, dense_progs idx pm nd = Some progs1 /\
  Kernel ustep ulive (uinit (seq 0 n) progs1) (fun s1 =>
    forall T tperm, Index le (mixed_vol idx pm dco nd cellvol ptvol) tperm T -> tperm ≡ₚ seq 0 m ->
    exists progs2, Forall2 (fun i prog =>
       spatial_query T (mixed_leaf near hit idx pm dco nd i) (pv i) (mixed_callback near pm dco nd star swap core i) (Some []) = Ok (Some prog)) (seq 0 n) progs2 /\
     Kernel ustep ulive (uinit (u_labels s1) progs2) (fun s2 => rest progs2 s2 T tperm)).
Proof.
  intros Hcd Hlt HE Hrest. destruct (Conn_equiv E) as (R1 & R2 & R3).
  destruct (dense_progs_ok near hit cell n minpts idx pm dco nd) with (core := core) (E := E) as (progs1 & Ep & Hops1 & Hhas1); try assumption.
  exists progs1. split; [done|].
  apply (uf_kernel n (fun c : nat => core c = true) E).
  - intros prog op Hp Hop. destruct (Hops1 _ _ Hp Hop) as (i & j & -> & Hi & Hj & HEij). pose proof HEij as HE'. apply HE in HE' as (Hci & Hcj & _); [|done|done].
    simpl. split; [done|]. split; [done|]. by apply rst_step.
  - apply GoodL_seq, R1.
  - intros s1 G1 _ HX1 T tperm HI HP.
    set (po := prog_of near hit idx pm dco nd star swap core tperm).
    exists (map po (seq 0 n)). split.
    { apply MixedProgs_seq. intros i Hi. eapply (progs_exist near hit cell n minpts idx pm dco nd); eauto. apply mixed_prune. }
    assert (forall prog, prog ∈ map po (seq 0 n) <-> exists i, i < n /\ prog = po i) as Hin.
    { intros prog. rewrite elem_of_list_In, in_map_iff. split; [intros (i & <- & Hi); apply in_seq in Hi; exists i; split; [lia|done]|].
      intros (i & Hi & ->). exists i. split; [done|]. apply in_seq. lia. }
    assert (forall prog op, prog ∈ map po (seq 0 n) -> op ∈ prog -> op_ok n (fun c : nat => core c = true) (Conn E) op /\
       (forall x j, op = Into x j -> star = false /\ core x = false /\ core j = true /\ near x j = true)) as Hops2.
    { intros prog op Hp Hop. apply Hin in Hp as (i & Hi & ->). eapply (prog_ops near hit cell n minpts idx pm dco nd near_sym LY star swap core E); eauto. }
    apply (uf_kernel n (fun c : nat => core c = true) E).
    + intros prog op Hp Hop. by apply (Hops2 _ _ Hp Hop).
    + constructor.
      * apply G1.
      * apply G1.
      * apply G1.
      * intros x Hx Hcx. left. destruct (gl_other _ _ _ _ _ G1 x Hx Hcx) as [|(_ & _ & prog & j & Hp & Hop & _)]; [done|].
        destruct (Hops1 _ _ Hp Hop) as (? & ? & ? & _). done.
    + intros s2 G2 U HX2.
      destruct (both_kernels near hit cell n minpts idx pm dco nd near_sym HCC LY star swap core E Hcd Hlt HE tperm (u_labels s1) s2 HP) as [B1 B2]; [|done| |].
      * intros p i j Hp1 Hp2 Hi Hj Ec. destruct (Hhas1 p i j Hp1 Hp2 Hi Hj Ec) as (prog & Hpr & Hop).
        eapply Exec_merged; [|by apply HX1|done]. intros a b k Hg. destruct (Hops1 _ _ Hpr Hg) as (? & ? & ? & _). done.
      * intros i Hi. apply HX2, Hin. eauto.
      * apply Hrest; auto.
        -- intros prog x j Hp Hop. destruct (Hops2 _ _ Hp Hop) as [_ H]. destruct (H x j eq_refl) as (? & ? & ? & ?). done.
        -- intros Hs x Hx Hcx (j & Hj & Hjn & Hn). eapply (B2 Hs x j); eauto.
Qed.
End Final.
