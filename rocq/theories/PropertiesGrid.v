(** C25, C53: the grid of the DenseBox implementation, and what it means for DenseBox clustering. *)
From Coq Require Import Lqa Sorting.Sorted.
From Verif Require Import TraversalSpec PropertiesTraversal TreeConstructionProof PropertiesDenseBox.
From Verif Require Export GridProof.
Local Open Scope nat_scope.

(** ** The contract in exact arithmetic, away from the upper faces *)
(** What is missing from the full property: points on the upper face of a grid whose extent is a whole number of cells (for
    those it is false, see below), and rounding. *)
Theorem C25_grid_cells_partial : forall g, Forall axis_ok g ->
  (forall p, InBounds g p -> BelowTop g p -> InBox p (cellBox g (cellIndex g p))) /\
  (forall p q, InBounds g p -> BelowTop g p -> InBounds g q -> BelowTop g q -> cellIndex g p = cellIndex g q -> (dist2 p q <= sides2 g)%Q).
Proof. intros g HG. split; intros; [by apply in_own_box|by apply same_cell_close]. Qed.

(** ** ... and false on the upper face: 2-D, bounds [0,2] x [0,2], h = 1.  (2,0) and (0,1) get the same cell although they
    are farther apart than the diagonal of a cell, and (2,0) is outside the box of its cell. *)
Theorem C25_grid_cells_refuted : exists g p q,
  Forall axis_ok g /\ fits (2 ^ 64 - 1) g = true /\ InBounds g p /\ InBounds g q /\
  cellIndex g p = cellIndex g q /\ (sides2 g < dist2 p q)%Q /\ ~ InBox p (cellBox g (cellIndex g p)).
Proof.
  exists [Axis 0 2 1; Axis 0 2 1], [2; 0]%Q, [0; 1]%Q. split; [repeat constructor|]. split; [reflexivity|].
  split; [repeat constructor; simpl; discriminate|]. split; [repeat constructor; simpl; discriminate|]. split; [reflexivity|]. split; [reflexivity|].
  intros H. vm_compute in H. inversion H as [|? ? ? ? [H1 H2]]; subst. exact (H2 eq_refl).
Qed.

(** ** Points of the bounding box *)
Lemma fold_min_le x xs : (fold_right qmin x xs <= x)%Q /\ Forall (fun y => fold_right qmin x xs <= y)%Q xs.
Proof.
  assert (forall a b, qmin a b <= a /\ qmin a b <= b)%Q as H.
  { intros a b. unfold qmin. destruct (Qle_bool a b) eqn:E; [apply Qle_bool_iff in E|apply qle_bool_false in E]; split; lra. }
  induction xs as [|y xs [IH1 IH2]]; simpl; [split; [lra|done]|]. destruct (H y (fold_right qmin x xs)) as [H1 H2]. split; [lra|].
  constructor; [done|]. eapply Forall_impl; [exact IH2|]. simpl. intros. lra.
Qed.
Lemma fold_max_ge x xs : (x <= fold_right qmax x xs)%Q /\ Forall (fun y => y <= fold_right qmax x xs)%Q xs.
Proof.
  assert (forall a b, a <= qmax a b /\ b <= qmax a b)%Q as H.
  { intros a b. unfold qmax. destruct (Qle_bool a b) eqn:E; [apply Qle_bool_iff in E|apply qle_bool_false in E]; split; lra. }
  induction xs as [|y xs [IH1 IH2]]; simpl; [split; [lra|done]|]. destruct (H y (fold_right qmax x xs)) as [H1 H2]. split; [lra|].
  constructor; [done|]. eapply Forall_impl; [exact IH2|]. simpl. intros. lra.
Qed.
Lemma axis_bounds h pts d p : p ∈ pts ->
  exists a, match col pts d with [] => Axis 0 0 h | x :: xs => Axis (fold_right qmin x xs) (fold_right qmax x xs) h end = a /\
    a_h a = h /\ (a_min a <= nth d p 0 <= a_max a)%Q.
Proof.
  intros Hp. destruct pts as [|p0 pts]; [by apply elem_of_nil in Hp|]. simpl. eexists. split; [reflexivity|]. split; [done|]. simpl.
  destruct (fold_min_le (nth d p0 0%Q) (col pts d)) as [A1 A2]. destruct (fold_max_ge (nth d p0 0%Q) (col pts d)) as [B1 B2].
  apply elem_of_cons in Hp as [->|Hp]; [done|]. unfold col in *. rewrite List.Forall_forall in A2, B2.
  split; [apply A2|apply B2]; (apply in_map_iff; exists p; split; [done|by apply elem_of_list_In]).
Qed.
Lemma grid_bounds dim h pts p : p ∈ pts -> length p = dim -> InBounds (grid_of dim h pts) p.
Proof.
  intros Hp HL. unfold InBounds, grid_of. apply Forall2_same_length_lookup_2; [by rewrite map_length, seq_length|]. intros d a x Ha Hx.
  change (map ?f ?l) with (f <$> l) in Ha. apply list_lookup_fmap_Some in Ha as (d' & Hd & ->). apply lookup_seq in Hd as [-> Hd].
  destruct (axis_bounds h pts (0 + d) p Hp) as (a & -> & _ & H). simpl in H. erewrite nth_lookup_Some in H by eauto. done.
Qed.
Lemma grid_axis_ok dim h pts : (0 < h)%Q -> pts <> [] -> Forall axis_ok (grid_of dim h pts).
Proof.
  intros Hh Hne. destruct pts as [|p0 pts]; [done|]. apply Forall_forall. intros a Ha. apply elem_of_list_In, in_map_iff in Ha as (d & Ha & _).
  destruct (axis_bounds h (p0 :: pts) d p0 ltac:(left)) as (a' & Ea & H1 & H2). rewrite Ea in Ha. subst a'.
  split; [by rewrite H1|]. unfold extent. destruct (Qeq_bool (a_max a - a_min a) 0) eqn:E; [lia|]. rewrite H1.
  assert (~ (a_max a - a_min a == 0))%Q by (intros H; apply Qeq_bool_iff in H; congruence).
  assert (0 < (a_max a - a_min a) / h)%Q as HD by (apply Qlt_shift_div_l; [done|]; lra).
  pose proof (Qle_ceiling ((a_max a - a_min a) / h)) as HC. rewrite Zlt_Qlt. change (inject_Z 0) with 0%Q. lra.
Qed.
Lemma grid_sides dim h pts : (sides2 (grid_of dim h pts) == inject_Z (Z.of_nat dim) * sq h)%Q.
Proof.
  unfold grid_of. assert (forall l, sides2 (map (fun d => match col pts d with [] => Axis 0 0 h | x :: xs => Axis (fold_right qmin x xs) (fold_right qmax x xs) h end) l) == inject_Z (Z.of_nat (length l)) * sq h)%Q as H; [|by rewrite H, seq_length].
  induction l as [|d l IH]; simpl sides2; [vm_compute; reflexivity|]. rewrite IH. simpl length. rewrite Nat2Z.inj_succ, <- Z.add_1_r, inject_Z_plus. change (inject_Z 1) with 1%Q.
  assert (a_h match col pts d with [] => Axis 0 0 h | x :: xs => Axis (fold_right qmin x xs) (fold_right qmax x xs) h end = h) as -> by (by destruct (col pts d)). ring.
Qed.
Lemma index_nonneg g p : Forall axis_ok g -> InBounds g p -> BelowTop g p -> (0 <= cellIndex g p)%Z.
Proof.
  intros HG HB. revert HG. induction HB as [|a x g p [H1 H2] HB IH]; intros HG HT; [done|]. simpl.
  apply Forall_cons in HG as [[Hh He] HG]. inversion HT as [|? ? ? ? HT1 HT2]; subst.
  pose proof (index_range a x Hh H1 HT1). specialize (IH HG HT2). nia.
Qed.

(** ** DenseBox on its grid *)
Section OnGrid.
Variables (dim : nat) (h eps2 : Q) (pts : list (list Q)).
Definition point_at (i : nat) : list Q := nth i pts (nth 0 pts []).
Definition the_grid : list axis := grid_of dim h pts.
Definition g_near (i j : nat) : bool := Qle_bool (dist2 (point_at i) (point_at j)) eps2.
Definition g_cell (i : nat) : nat := Z.to_nat (cellIndex the_grid (point_at i)).
Definition g_hit (i c : nat) : bool := Qle_bool (boxdist2 (point_at i) (cellBox the_grid (Z.of_nat c))) eps2.
(** no axis is a whole number (other than 0) of cells long *)
Definition NoWholeExtent : Prop := Forall (fun a => forall k, (inject_Z k * a_h a == a_max a - a_min a)%Q -> (a_max a == a_min a)%Q) the_grid.

Hypothesis pts_ne : pts <> [].
Hypothesis pts_dim : Forall (fun p => length p = dim) pts.
Hypothesis h_pos : (0 < h)%Q.
Hypothesis h_eps : (inject_Z (Z.of_nat dim) * sq h <= eps2)%Q.
Hypothesis nowhole : NoWholeExtent.

Lemma point_in i : point_at i ∈ pts.
Proof.
  unfold point_at. destruct (Nat.lt_ge_cases i (length pts)) as [H|H]; [by apply elem_of_list_In, nth_In|].
  rewrite nth_overflow by done. destruct pts; [done|]. left.
Qed.
Lemma point_below i : InBounds the_grid (point_at i) /\ BelowTop the_grid (point_at i).
Proof.
  pose proof (point_in i) as Hp. assert (InBounds the_grid (point_at i)) as HB by (apply grid_bounds; [done|by eapply Forall_forall in pts_dim]).
  split; [done|]. pose proof (grid_axis_ok dim h pts h_pos pts_ne) as HG. fold the_grid in HG. unfold BelowTop.
  pose proof nowhole as HN. unfold NoWholeExtent in HN. revert HG HN. clear Hp. generalize dependent (point_at i). generalize the_grid. intros g0 p0 HB. induction HB as [|a x g p [H1 H2] HB IH]; intros HG HN; [constructor|].
  apply Forall_cons in HG as [Ha HG]. apply Forall_cons in HN as [HN1 HN]. constructor; [|by apply IH].
  apply below_top; [done|done|]. destruct (Qeq_dec (inject_Z (extent a) * a_h a) (a_max a - a_min a)) as [E|E]; [|by right].
  exfalso. pose proof (HN1 _ E) as E0. destruct Ha as [Ha1 Ha2]. assert (extent a = 1%Z) as E1.
  { unfold extent. assert (Qeq_bool (a_max a - a_min a) 0 = true) as -> by (apply Qeq_bool_iff; lra). done. }
  rewrite E1 in E. change (inject_Z 1) with 1%Q in E. lra.
Qed.
Lemma dist2_sym p q : (dist2 p q == dist2 q p)%Q.
Proof. revert q. induction p as [|x p IH]; intros [|y q]; simpl; try reflexivity. rewrite IH. unfold sq. ring. Qed.
Lemma dist2_refl p : (dist2 p p == 0)%Q.
Proof. induction p as [|x p IH]; simpl; [reflexivity|]. rewrite IH. unfold sq. ring. Qed.
Lemma grid_contract : CellContract g_near g_hit g_cell.
Proof.
  pose proof (grid_axis_ok dim h pts h_pos pts_ne) as HG. fold the_grid in HG. split.
  - intros a b E. destruct (point_below a) as [A1 A2], (point_below b) as [B1 B2]. unfold g_near. apply Qle_bool_iff.
    pose proof (index_nonneg _ _ HG A1 A2). pose proof (index_nonneg _ _ HG B1 B2). unfold g_cell in E.
    pose proof (same_cell_close the_grid _ _ HG A1 A2 B1 B2 ltac:(lia)) as HD. pose proof (grid_sides dim h pts) as HS. fold the_grid in HS. lra.
  - intros a b E. destruct (point_below b) as [B1 B2]. unfold g_near in E. apply Qle_bool_iff in E. unfold g_hit. apply Qle_bool_iff.
    unfold g_cell. rewrite Z2Nat.id by (by apply index_nonneg). eapply Qle_trans; [|exact E]. apply boxdist_le; [|by apply in_own_box].
    assert (forall i, length (point_at i) = dim) as HL by (intros i; pose proof (point_in i); by eapply Forall_forall in pts_dim). by rewrite !HL.
Qed.
End OnGrid.

(** The whole DenseBox program on the grid it builds itself.  [sides of length h] with dim * h^2 <= eps^2; missing: inputs with
    an axis which is a whole number of cells long (false for them, see below), and rounding. *)
Theorem C53_densebox_on_grid_partial : forall V (le : V -> V -> Prop) cellvol ptvol pv dim h eps2 pts minpts big (star swap : bool),
  pts <> [] -> Forall (fun p => length p = dim) pts -> (0 < h)%Q -> (inject_Z (Z.of_nat dim) * sq h <= eps2)%Q ->
  NoWholeExtent dim h pts ->
  (forall i c v, le (cellvol c) v -> g_hit dim h eps2 pts i c = true -> pv i v = true) ->
  (forall i j v, le (ptvol j) v -> g_near eps2 pts i j = true -> pv i v = true) ->
  2 <= minpts -> minpts <= big ->
  forall permute order scratch, let n := length pts in permute ≡ₚ seq 0 n -> order ≡ₚ seq 0 (S n) -> length scratch = S n ->
  densebox le cellvol ptvol (g_near eps2 pts) (g_hit dim h eps2 pts) pv n minpts big star swap (map (g_cell dim h pts) permute) permute order scratch
    (if star then ValidDBSCANStar n minpts (g_near eps2 pts) else ValidDBSCAN n minpts (g_near eps2 pts)).
Proof.
  intros V le cellvol ptvol pv dim h eps2 pts minpts big star swap H1 H2 H3 H4 H5 PSc PSp Hm Hb permute order scratch n HP Ho Hs.
  apply C24_densebox_valid; auto.
  - intros a b. unfold g_near. apply eq_true_iff_eq. rewrite !Qle_bool_iff. by rewrite dist2_sym.
  - intros a. unfold g_near. apply Qle_bool_iff. rewrite dist2_refl. eapply Qle_trans; [|exact H4].
    assert (0 <= inject_Z (Z.of_nat dim))%Q by (change 0%Q with (inject_Z 0); rewrite <- Zle_Qle; lia). unfold sq. assert (0 <= h * h)%Q by nra. nra.
  - by apply grid_contract.
Qed.

(** ** DenseBox is wrong on the upper face *)
(** any schedule of a machine, skipping threads which cannot step *)
Fixpoint runl {St} (step : St -> nat -> option St) (s : St) (ts : list nat) : St :=
  match ts with [] => s | t :: ts => match step s t with Some s' => runl step s' ts | None => runl step s ts end end.
Lemma Kernel_run {St} (step : St -> nat -> option St) live s0 (post : St -> Prop) ts :
  Kernel step live s0 post -> (forall t, ~ live (runl step s0 ts) t) -> post (runl step s0 ts).
Proof.
  intros (b & HK) HD. assert (exists ts', execg step s0 ts' (runl step s0 ts)) as (ts' & He).
  { clear HK HD. revert s0. induction ts as [|t ts IH]; intros s0; simpl; [exists []; constructor|].
    destruct (step s0 t) as [s'|] eqn:E; [|apply IH]. destruct (IH s') as (ts' & H). exists (t :: ts'). econstructor; eauto. }
  destruct (HK ts' _ He) as (_ & _ & H). auto.
Qed.
Lemma all_lookup {A} (P : A -> Prop) l (t : nat) x : Forall P l -> l !! t = Some x -> P x.
Proof. intros H Ht. eapply Forall_lookup in H; eauto. Qed.

Definition zvol (b : list (Q * Q)) : zbox :=
  match b with (lo, hi) :: _ => Some ((Qfloor (2 * lo), Qfloor (2 * hi)), (0, 0)%Z, (0, 0)%Z) | [] => None end.
(** four points on a line, eps = 1 *)
Definition face_pts : list (list Q) := [[0]; [4]; [4]; [7 # 2]]%Q.
Definition face_permute : list nat := [0; 3; 1; 2].
Notation face_near := (g_near 1 face_pts).
Notation face_hit := (g_hit 1 1 1 face_pts).
Notation face_cell := (g_cell 1 1 face_pts).
Definition face_cellvol (c : nat) : zbox := zvol (cellBox (the_grid 1 1 face_pts) (Z.of_nat c)).
Definition face_ptvol (i : nat) : zbox := zvol (map (fun x => (x, x)) (point_at face_pts i)).

(** The points 0, 4, 4 and 3.5 with eps = 1 and core_min_size = 2: the last three are pairwise within eps, but the
    implementation does not put them in one cluster.  Every hypothesis of C24 other than the contract of the grid holds
    (with the bounding volume test that never prunes). *)
Theorem C53_densebox_on_grid_refuted : exists dim h eps2 pts permute n minpts big,
  let near := g_near eps2 pts in let hit := g_hit dim h eps2 pts in let cell := g_cell dim h pts in
  exists (le : zbox -> zbox -> Prop) cellvol ptvol pv order scratch,
  n = length pts /\ Forall (fun p => length p = dim) pts /\ (inject_Z (Z.of_nat dim) * sq h == eps2)%Q /\
  Forall axis_ok (the_grid dim h pts) /\ fits (2 ^ 64 - 1) (the_grid dim h pts) = true /\
  (forall i c v, le (cellvol c) v -> hit i c = true -> pv i v = true) /\
  (forall i j v, le (ptvol j) v -> near i j = true -> pv i v = true) /\
  2 <= minpts /\ minpts <= big /\ permute ≡ₚ seq 0 n /\ StronglySorted Nat.le (map cell permute) /\ order ≡ₚ seq 0 (S n) /\ length scratch = S n /\
  ~ densebox le cellvol ptvol near hit pv n minpts big false false (map cell permute) permute order scratch (ValidDBSCAN n minpts near).
Proof.
  exists 1, 1%Q, 1%Q, face_pts, face_permute, 4, 2, 100. cbv zeta.
  exists zle, face_cellvol, face_ptvol, (fun _ _ => true), (seq 0 5), (replicate 5 0).
  split; [done|]. split; [repeat constructor|]. split; [reflexivity|]. split; [repeat constructor|]. split; [reflexivity|].
  split; [done|]. split; [done|]. split; [lia|]. split; [lia|]. split; [apply (bool_decide_unpack _); vm_compute; reflexivity|].
  split; [vm_compute; repeat constructor|]. split; [done|]. split; [done|].
  intros (offs & Eo & HK). vm_compute in Eo. injection Eo as <-.
  apply (Kernel_run _ _ _ _ (concat (replicate 9 [0; 1; 2]))) in HK.
  2: { intros t (pc & Ht & Hne). revert Hne. apply (all_lookup (fun pc => ~ pc <> RDone) _ t _) in Ht; [done|]. vm_compute. repeat constructor; intros H; by apply H. }
  destruct HK as (idx & pm & E1 & E2 & HK). 
  assert (idx = [4; 4; 0; 3]) as ->.
  { apply (inj (fmap (M:=list) Some)). change (map Some idx) with (Some <$> idx) in E1. rewrite <- E1. vm_compute. reflexivity. }
  assert (pm = [1; 2; 0; 3]) as ->.
  { apply (inj (fmap (M:=list) Some)). change (map Some pm) with (Some <$> pm) in E2. rewrite <- E2. vm_compute. reflexivity. }
  clear E1 E2. destruct (HK (seq 0 3) (replicate 3 0)) as (dco & Ed & progs1 & Ep & HK1); [done|done|]. clear HK.
  vm_compute in Ed. injection Ed as <-. vm_compute in Ep. injection Ep as <-.
  apply (Kernel_run _ _ _ _ (replicate 30 0)) in HK1.
  2: { intros t (th & Ht & Hne). revert Hne. apply (all_lookup (fun th => ~ snd th <> None) _ t _) in Ht; [done|]. vm_compute. repeat constructor; intros H; by apply H. }
  set (T := default empty_tree (build_seq zjoin None (mixed_vol [4; 4; 0; 3] [1; 2; 0; 3] [0; 2] 2 face_cellvol face_ptvol) 64 [1; 2; 3]%Z [0; 1; 2])).
  destruct (HK1 T [0; 1; 2]) as (counts & _ & progs2 & HF & HK2).
  { assert (built zjoin None (mixed_vol [4; 4; 0; 3] [1; 2; 0; 3] [0; 2] 2 face_cellvol face_ptvol) 64 [1; 2; 3]%Z [0; 1; 2] T) as HB
      by (apply build_seq_built; [simpl; lia|]; vm_compute; reflexivity).
    apply (C01_index_over_any_number_of_values _ zle zjoin None _ 64 [1; 2; 3]%Z);
      [apply zbox_JoinSemi|lia|reflexivity|simpl; lia| |exact HB]. apply sorted_codesb_ok. vm_compute. reflexivity. }
  { vm_compute. reflexivity. }
  clear HK1. unfold MixedProgs in HF. simpl seq in HF.
  do 4 (apply Forall2_cons_inv_l in HF; destruct HF as (? & ? & ? & HF & ->)). apply Forall2_nil_inv_l in HF. subst.
  repeat match goal with H : spatial_query _ _ _ _ _ = _ |- _ => vm_compute in H; injection H as <- end.
  apply (Kernel_run _ _ _ _ (concat (replicate 60 [0; 1; 2; 3]))) in HK2.
  2: { intros t (th & Ht & Hne). revert Hne. apply (all_lookup (fun th => ~ snd th <> None) _ t _) in Ht; [done|]. vm_compute. repeat constructor; intros H; by apply H. }
  unfold finish in HK2. apply (Kernel_run _ _ _ _ (concat (replicate 30 [0; 1; 2; 3]))) in HK2.
  2: { intros t (pc & Ht & Hne). revert Hne. apply (all_lookup (fun pc => ~ pc <> FDone) _ t _) in Ht; [done|]. vm_compute. repeat constructor; intros H; by apply H. }
  destruct HK2 as (out & Eout & [_ [_ HV] _ _]). 
  assert (Core 4 2 face_near 1) as C1 by (split; [lia|]; vm_compute; lia). assert (Core 4 2 face_near 3) as C3 by (split; [lia|]; vm_compute; lia).
  specialize (proj2 (HV 1 3 C1 C3)) as HE. assert (out !! 1 = out !! 3) as E by (apply HE, rst_step; split; [done|]; split; [done|]; vm_compute; reflexivity).
  vm_compute in Eout. injection Eout as <-. vm_compute in E. discriminate.
Qed.
Print Assumptions C25_grid_cells_partial.
Print Assumptions C25_grid_cells_refuted.
Print Assumptions C53_densebox_on_grid_partial.
Print Assumptions C53_densebox_on_grid_refuted.

(** Example for the positive results: 0, 1/4, 1/3, 9/2 with h = 1 (the extent is 4.5 cells). *)
Definition part_pts : list (list Q) := [[0]; [1 # 4]; [1 # 3]; [9 # 2]]%Q.
Example C25_example : part_pts <> [] /\ Forall (fun p => length p = 1) part_pts /\ (inject_Z 1 * sq 1 <= 1)%Q /\ NoWholeExtent 1 1 part_pts /\
  map (g_cell 1 1 part_pts) [0; 1; 2; 3] = [0; 0; 0; 4] /\ BelowTop (the_grid 1 1 part_pts) [9 # 2].
Proof.
  split; [done|]. split; [repeat constructor|]. split; [vm_compute; discriminate|]. split.
  - constructor; [|constructor]. vm_compute a_h. vm_compute a_max. vm_compute a_min. intros k Hk. exfalso. unfold Qeq, Qmult, Qminus, Qplus, Qopp in Hk. simpl in Hk. lia.
  - split; [vm_compute; reflexivity|]. repeat constructor.
Qed.
