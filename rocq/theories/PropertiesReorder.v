(** C26: the points of dense cells come first, whatever order the threads reserve their ranges in. *)
From Verif Require Import CrsProof.
From Verif Require Export ReorderProof.

(** [offs] delimits cells of the n sorted points. *)
Definition CellOffsets (offs : list nat) (n : nat) : Prop :=
  offs !! 0 = Some 0 /\ offs !! (length offs - 1) = Some n /\
  (forall c a b, offs !! c = Some a -> offs !! S c = Some b -> a <= b).

(** The outputs list whole cells, [dl] the dense ones (at least minpts points) before [sl] the others, every cell once;
    the first [nd] entries are the dense ones; every point keeps its cell index. *)
Record DenseFirst (offs idx pm : list nat) (minpts nd : nat) (idx' pm' : list nat) : Prop := {
  df_cells : exists dl sl, dl ++ sl ≡ₚ seq 0 (length offs - 1) /\
    (forall c, c ∈ dl -> minpts <= length (segment offs pm c)) /\ (forall c, c ∈ sl -> length (segment offs pm c) < minpts) /\
    idx' = concat (map (segment offs idx) (dl ++ sl)) /\ pm' = concat (map (segment offs pm) (dl ++ sl)) /\
    nd = length (concat (map (segment offs pm) dl));
  df_perm : zip idx' pm' ≡ₚ zip idx pm }.

Lemma segments_take {A} offs n (arr : list A) : CellOffsets offs n ->
  concat (map (segment offs arr) (seq 0 (length offs - 1))) = take n arr.
Proof.
  intros HO.
  assert (forall m, m <= length offs - 1 -> concat (map (segment offs arr) (seq 0 m)) = take (default 0 (offs !! m)) arr) as H.
  { induction m as [|m IH]; intros Hm; [destruct HO as [-> _]; done|].
    rewrite seq_S, map_app, concat_app, IH by lia. simpl. rewrite app_nil_r. unfold segment.
    destruct (cell_bound offs n HO m Hm) as [_ ->]. apply take_take_drop. }
  rewrite H by done. destruct HO as (_ & -> & _). done.
Qed.
Lemma segments_all {A} offs n (arr : list A) : CellOffsets offs n -> length arr = n ->
  concat (map (segment offs arr) (seq 0 (length offs - 1))) = arr.
Proof. intros HO Ha. rewrite (segments_take offs n) by done. apply take_ge. lia. Qed.
Lemma concat_perm {A} (l l' : list (list A)) : l ≡ₚ l' -> concat l ≡ₚ concat l'.
Proof.
  induction 1 as [|x l l' _ IH|x y l|l1 l2 l3 _ IH1 _ IH2]; simpl; [done|by rewrite IH| |by rewrite IH1].
  rewrite !app_assoc. apply Permutation_app_tail, Permutation_app_comm.
Qed.
Lemma zip_app {A B} (l1 l2 : list A) (k1 k2 : list B) : length l1 = length k1 -> zip (l1 ++ l2) (k1 ++ k2) = zip l1 k1 ++ zip l2 k2.
Proof. revert k1. induction l1 as [|x l1 IH]; intros [|y k1] H; simpl in *; try done. f_equal. apply IH. lia. Qed.
Lemma segment_zip {A B} offs (l : list A) (k : list B) c : segment offs (zip l k) c = zip (segment offs l c) (segment offs k c).
Proof.
  unfold segment. generalize (csize offs c) (default 0 (offs !! c)). intros m d. revert l k. induction d as [|d IH]; intros l k.
  - rewrite !drop_0. revert l k. induction m as [|m IH]; intros [|x l] [|y k]; try done. simpl. by rewrite IH.
  - destruct l as [|x l], k as [|y k]; simpl; rewrite ?take_nil, ?zip_with_nil_r; auto.
Qed.
Lemma concat_zip {A B C} (f : C -> list A) (g : C -> list B) l : (forall c, c ∈ l -> length (f c) = length (g c)) ->
  zip (concat (map f l)) (concat (map g l)) = concat (map (fun c => zip (f c) (g c)) l).
Proof.
  induction l as [|c l IH]; intros H; [done|]. simpl. rewrite zip_app by (apply H; left). f_equal. apply IH. intros. apply H. by right.
Qed.

Theorem C26_reorder_dense_first : forall offs idx pm minpts n,
  CellOffsets offs n -> length idx = n -> length pm = n ->
  Kernel (rstep offs idx pm minpts) rlive (rinit offs idx pm minpts) (fun s =>
    exists idx' pm', r_idx s = map Some idx' /\ r_perm s = map Some pm' /\
      DenseFirst offs idx pm minpts (num_dense_points offs minpts) idx' pm').
Proof.
  intros offs idx pm minpts n HO Hi Hp. exists (rpot offs (rinit offs idx pm minpts)). intros ts s He.
  assert ((exists dl sl, RInv offs minpts n idx pm dl sl s) /\ rpot offs s + length ts <= rpot offs (rinit offs idx pm minpts)) as [(dl & sl & I) Hb].
  { apply (execg_inv (rstep offs idx pm minpts) (fun s => exists dl sl, RInv offs minpts n idx pm dl sl s) (rpot offs)); [| |done].
    - intros s1 t s2 (dl & sl & I) Hs. eapply (rstep_inv offs minpts n); eauto.
    - exists [], []. by apply rinit_inv. }
  split; [lia|]. split; [intros t Ht; by eapply (rstep_progress offs minpts n)|]. intros HD.
    destruct (rdone offs minpts n HO idx pm Hi Hp dl sl s I HD) as (P1 & P2 & E1 & E2).
    exists (concat (map (segment offs idx) (dl ++ sl))), (concat (map (segment offs pm) (dl ++ sl))). split; [done|]. split; [done|].
    assert (forall c, c ∈ dl ++ sl -> c < length offs - 1) as HC.
    { intros c Hc. apply elem_of_app in Hc as [Hc|Hc]; [rewrite P1 in Hc|rewrite P2 in Hc]; apply elem_filter in Hc as [Hc _]; apply elem_of_seq in Hc; lia. }
    assert (dl ++ sl ≡ₚ seq 0 (length offs - 1)) as HP.
    { rewrite P1, P2. generalize (seq 0 (length offs - 1)). intros l. induction l as [|c l IH]; [done|]. cbn [List.filter].
      destruct (is_dense offs minpts c); cbn [negb]; simpl; [by rewrite IH|]. rewrite <- Permutation_middle. by rewrite IH. }
    assert (forall c, c ∈ dl ++ sl -> length (segment offs pm c) = csize offs c) as HL.
    { intros c Hc. eapply (cell_len offs n HO); eauto. }
    split.
    + exists dl, sl. split; [done|]. split; [|split].
      * intros c Hc. rewrite HL by (apply elem_of_app; by left). rewrite P1 in Hc. apply elem_filter in Hc as [_ Hc]. by apply Nat.leb_le.
      * intros c Hc. rewrite HL by (apply elem_of_app; by right). rewrite P2 in Hc. apply elem_filter in Hc as [_ Hc].
        apply negb_true_iff, Nat.leb_gt in Hc. done.
      * split; [done|]. split; [done|]. unfold num_dense_points. rewrite <- (sum_fmap_perm _ _ _ P1), length_concat.
        f_equal. change (map (segment offs pm) dl) with (segment offs pm <$> dl). rewrite <- list_fmap_compose. apply list_fmap_ext. intros i c Hc.
        symmetry. apply HL, elem_of_app. left. by eapply elem_of_list_lookup_2.
    + rewrite concat_zip.
      * etransitivity; [apply concat_perm, (fmap_Permutation (fun c => zip (segment offs idx c) (segment offs pm c))), HP|].
        erewrite (list_fmap_ext (fun c => zip (segment offs idx c) (segment offs pm c)) (segment offs (zip idx pm))); [|intros; by rewrite segment_zip].
        change (segment offs (zip idx pm) <$> seq 0 (length offs - 1)) with (map (segment offs (zip idx pm)) (seq 0 (length offs - 1))).
        rewrite (segments_all offs n); [done|done|]. rewrite zip_with_length. lia.
      * intros c Hc. rewrite HL by done. eapply (cell_len offs n HO); eauto.
Qed.
Print Assumptions C26_reorder_dense_first.

(** Example: five cells of sizes 1, 3, 2, 4, 1 and threshold 3; in the first schedule the threads run one after the other,
    in the second cell 3 reserves its range before cell 1 and the stores alternate. *)
Definition re_offs : list nat := [0; 1; 4; 6; 10; 11].
Definition re_idx : list nat := [2; 5; 5; 5; 7; 7; 8; 8; 8; 8; 9].
Definition re_pm : list nat := [10; 3; 0; 7; 1; 2; 9; 8; 4; 5; 6].
Example C26_example : CellOffsets re_offs 11 /\ num_dense_points re_offs 3 = 7 /\
  (s ← rrun re_offs re_idx re_pm 3 (rinit re_offs re_idx re_pm 3) (concat (replicate 9 0 :: replicate 9 1 :: replicate 9 2 :: [replicate 9 3; replicate 9 4]));
   Some (r_idx s, r_perm s)) =
    Some (map Some [5; 5; 5; 8; 8; 8; 8; 2; 7; 7; 9], map Some [3; 0; 7; 9; 8; 4; 5; 10; 1; 2; 6]) /\
  (s ← rrun re_offs re_idx re_pm 3 (rinit re_offs re_idx re_pm 3) (concat (replicate 9 [4; 3; 2; 1; 0]));
   Some (r_idx s, r_perm s)) =
    Some (map Some [8; 8; 8; 8; 5; 5; 5; 9; 7; 7; 2], map Some [9; 8; 4; 5; 3; 0; 7; 6; 1; 2; 10]).
Proof.
  split; [|vm_compute; repeat split; reflexivity]. split; [done|]. split; [done|].
  intros c a b H1 H2. do 6 (destruct c as [|c]; [simpl in *; injection H1 as <-; try done; injection H2 as <-; lia|]). done.
Qed.
