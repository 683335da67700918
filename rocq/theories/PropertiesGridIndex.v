(** Cell indices of the DenseBox grid in machine integers. *)
From Coq Require Import Lia Qabs.
From Verif Require Import GridIndexModel GridProof.
Local Open Scope Z_scope.

(** the number of cells of a grid *)
Definition cells (g : list axis) : Z := foldr (fun a n => extent a * n) 1 g.

Lemma cells_fit g : Forall axis_ok g -> forall m, fits m g = true -> (forall a, head g = Some a -> extent a <= m) -> 0 < m -> cells g <= m.
Proof.
  induction g as [|a [|b g] IH]; intros HG m HF HH Hm.
  - simpl. lia.
  - simpl. specialize (HH a eq_refl). lia.
  - apply Forall_cons in HG as [[Hh He] HG]. cbn [fits] in HF. apply andb_true_iff in HF as [H1 H2].
    apply Z.ltb_lt in H1. pose proof HG as HG'. apply Forall_cons in HG' as [[_ Hb] _].
    assert (cells (b :: g) <= m / extent a) as H3.
    { apply IH; [done|done| |lia]. intros c [= <-]. lia. }
    change (cells (a :: b :: g)) with (extent a * cells (b :: g)).
    pose proof (Z.mul_div_le m (extent a) He) as H4. nia.
Qed.
Lemma cells_pos g : Forall axis_ok g -> 1 <= cells g.
Proof. induction 1 as [|a g [_ He] _ IH]; simpl; [lia|]. fold (cells g). nia. Qed.

Lemma index_below g p : Forall axis_ok g -> InBounds g p -> BelowTop g p -> 0 <= cellIndex g p < cells g.
Proof.
  intros HG HB. revert HG. induction HB as [|a x g p [H1 H2] HB IH]; intros HG HT; [simpl; lia|].
  apply Forall_cons in HG as [[Hh He] HG]. inversion HT as [|? ? ? ? HT1 HT2]; subst.
  pose proof (index_range a x Hh H1 HT1) as HR. specialize (IH HG HT2). simpl. fold (cells g). nia.
Qed.

Lemma indexC_exact g p : Forall axis_ok g -> InBounds g p -> BelowTop g p -> Forall (fun a => extent a <= 2147483648) g -> cells g <= 2 ^ 64 ->
  cellIndexC g p = Some (cellIndex g p).
Proof.
  intros HG HB. revert HG. induction HB as [|a x g p [H1 H2] HB IH]; intros HG HT HE HC; [done|].
  pose proof (index_below (a :: g) (x :: p) HG ltac:(by constructor) HT) as HI.
  apply Forall_cons in HG as [[Hh He] HG]. inversion HT as [|? ? ? ? HT1 HT2]; subst. apply Forall_cons in HE as [HE1 HE2].
  pose proof (index_range a x Hh H1 HT1) as HR. pose proof (cells_pos g HG) as HP.
  cbn [cellIndexC]. change (cells (a :: g)) with (extent a * cells g) in *. rewrite IH by (try done; nia). cbn [mbind option_bind].
  unfold to_int. assert ((-2147483648 <=? coord_index a x) = true) as -> by (apply Z.leb_le; lia).
  assert ((coord_index a x <? 2147483648) = true) as -> by (apply Z.ltb_lt; lia). cbn [andb mbind option_bind].
  f_equal. simpl in HI. rewrite Z.mod_small by lia. done.
Qed.

(** ** C76: if no axis has more than 2^31 cells, the constructor's check guarantees that the index of every point below the far
    face is computed exactly, is the only index of its cell, and stays below the number of cells. *)
Theorem C76_index_partial : forall eps g, buildGrid eps g = true -> Forall (fun a => extent a <= 2147483648) g ->
  cells g < 2 ^ 64 /\
  (forall p, InBounds g p -> BelowTop g p -> cellIndexC g p = Some (cellIndex g p) /\ 0 <= cellIndex g p < cells g) /\
  (forall p q, InBounds g p -> BelowTop g p -> InBounds g q -> BelowTop g q ->
     (cellIndexC g p = cellIndexC g q <-> map (fun ax => coord_index (fst ax) (snd ax)) (zip g p) = map (fun ax => coord_index (fst ax) (snd ax)) (zip g q))).
Proof.
  intros eps g HB HE. unfold buildGrid in HB. rewrite !andb_true_iff in HB. destruct HB as [[[H1 _] H2] _].
  assert (Forall axis_ok g) as HG.
  { apply Forall_forall. intros a Ha. rewrite forallb_forall in H1. specialize (H1 a ltac:(by apply elem_of_list_In)). unfold axis_okb in H1.
    apply andb_true_iff in H1 as [H3 H4]. apply negb_true_iff in H3. apply qle_bool_false in H3. apply Z.ltb_lt in H4. by split. }
  assert (cells g <= 2 ^ 64 - 1) as HC.
  { apply cells_fit; [done|done| |lia]. intros a Ha. destruct g as [|b g]; simpl in Ha; [done|]. injection Ha as ->. apply Forall_cons in HE as [HE _]. lia. }
  split; [lia|]. split.
  - intros p Hp Ht. split; [apply indexC_exact; try done; lia|by apply index_below].
  - intros p q Hp Hpt Hq Hqt. rewrite !indexC_exact by (try done; lia). clear H1 H2 HC HE.
    revert HG q Hpt Hq Hqt. induction Hp as [|a x g p [B1 B2] Hp IH]; intros HG q Hpt Hq Hqt; inversion Hq as [|? y ? q' [B3 B4] Hq']; subst; [done|].
    inversion Hpt as [|? ? ? ? T1 T2]; subst. inversion Hqt as [|? ? ? ? T3 T4]; subst. apply Forall_cons in HG as [[Hh He] HG].
    specialize (IH HG q' T2 Hq' T4).
    pose proof (cellIndex_split a g x p (index_range a x Hh B1 T1)) as [E1 E2].
    pose proof (cellIndex_split a g y q' (index_range a y Hh B3 T3)) as [E3 E4].
    simpl zip. simpl map. split.
    + intros E. injection E as E. cbn [cellIndex] in E1, E2, E3, E4. rewrite E in E1, E2. f_equal; [congruence|]. apply IH. congruence.
    + intros E. injection E as Ei Er. f_equal. simpl. rewrite Ei. apply IH in Er. injection Er as ->. done.
Qed.

Example C76_index_example : let g := [Axis 0 4 1; Axis (-1) 2 (1 # 2)] in
  buildGrid (1 # 1000000) g = true /\ Forall (fun a => extent a <= 2147483648) g /\ InBounds g [7 # 2; 0]%Q /\ BelowTop g [7 # 2; 0]%Q /\
  cellIndexC g [7 # 2; 0]%Q = Some 11 /\ cells g = 24.
Proof.
  split; [vm_compute; reflexivity|]. split; [repeat constructor; vm_compute; discriminate|]. split; [repeat constructor; vm_compute; discriminate|].
  split; [repeat constructor; vm_compute; reflexivity|]. split; vm_compute; reflexivity.
Qed.

(** ** C76, false without that bound: the check limits the product of the extents to size_t, but the index along one axis is an
    int.  With 2^32 cells along the first axis (bounds [0, 2^32] x [0, 1], h = 1; all numbers are floats) every check passes and
    the point (2^31, 0) makes the conversion to int undefined. *)
Theorem C76_int_refuted : exists eps g p,
  (eps == 5 * (1 # 8388608))%Q /\ buildGrid eps g = true /\ InBounds g p /\ BelowTop g p /\ cells g < 2 ^ 64 /\ cellIndexC g p = None.
Proof.
  exists (5 * (1 # 8388608))%Q, [Axis 0 4294967296 1; Axis 0 1 1], [2147483648; 0]%Q.
  split; [reflexivity|]. split; [vm_compute; reflexivity|]. split; [repeat constructor; vm_compute; discriminate|].
  split; [repeat constructor; vm_compute; reflexivity|]. split; vm_compute; reflexivity.
Qed.

(** ** C76: the constructor taking a length per axis asserts on _h[d] before storing it: it reads an indeterminate value for
    every argument. *)
Theorem C76_per_axis_refuted : exists hs, Forall (fun h => 0 < h)%Q hs /\ per_axis_constructor hs = None.
Proof. exists [1; 1]%Q. split; [repeat constructor|]. vm_compute. reflexivity. Qed.
Theorem C76_per_axis_always : forall hs, hs <> [] -> per_axis_constructor hs = None.
Proof. intros [|h hs] H; done. Qed.
Example C76_per_axis_always_example : [1 # 2]%Q <> [].
Proof. done. Qed.

Print Assumptions C76_index_partial.
Print Assumptions C76_int_refuted.
Print Assumptions C76_per_axis_refuted.
Print Assumptions C76_per_axis_always.
