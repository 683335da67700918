(** Exact-arithmetic facts about the grid. *)
From Coq Require Import Lqa Qabs.
From Verif Require Export GridModel.
Local Open Scope Z_scope.

(** point inside a box, both given per axis *)
Definition InBox (p : list Q) (b : list (Q * Q)) : Prop := Forall2 (fun x (i : Q * Q) => fst i <= x /\ x <= snd i)%Q p b.
Definition InBounds (g : list axis) (p : list Q) : Prop := Forall2 (fun a x => a_min a <= x /\ x <= a_max a)%Q g p.
(** not on (or beyond) the far face of the last layer of cells along any axis *)
Definition BelowTop (g : list axis) (p : list Q) : Prop := Forall2 (fun a x => x < a_min a + inject_Z (extent a) * a_h a)%Q g p.

Lemma index_bounds a x : (0 < a_h a)%Q ->
  (a_min a + inject_Z (coord_index a x) * a_h a <= x /\ x < a_min a + (inject_Z (coord_index a x) + 1) * a_h a)%Q.
Proof.
  intros Hh. unfold coord_index. set (t := ((x - a_min a) / a_h a)%Q).
  assert (x == a_min a + t * a_h a)%Q as Ex by (unfold t; field; lra).
  pose proof (Qfloor_le t) as H1. pose proof (Qlt_floor t) as H2. rewrite inject_Z_plus in H2. change (inject_Z 1) with 1%Q in H2.
  set (f := inject_Z (Qfloor t)) in *. clearbody f t. split; nra.
Qed.
Lemma index_range a x : (0 < a_h a)%Q -> (a_min a <= x)%Q -> (x < a_min a + inject_Z (extent a) * a_h a)%Q -> 0 <= coord_index a x < extent a.
Proof.
  intros Hh H1 H2. destruct (index_bounds a x Hh) as [H3 H4]. split.
  - assert (-1 < coord_index a x); [|lia]. rewrite Zlt_Qlt. change (inject_Z (-1)) with (-1)%Q. nra.
  - rewrite Zlt_Qlt. nra.
Qed.
Lemma cellIndex_split a g x p : 0 <= coord_index a x < extent a ->
  cellIndex (a :: g) (x :: p) mod extent a = coord_index a x /\ cellIndex (a :: g) (x :: p) / extent a = cellIndex g p.
Proof.
  intros H. simpl. split.
  - rewrite Z.add_comm, Z_mod_plus_full. by apply Z.mod_small.
  - rewrite Z.add_comm, Z_div_plus_full by lia. rewrite Z.div_small by done. lia.
Qed.
Lemma in_own_box g p : Forall axis_ok g -> InBounds g p -> BelowTop g p -> InBox p (cellBox g (cellIndex g p)).
Proof.
  intros HG HB. revert HG. induction HB as [|a x g p [H1 H2] HB IH]; intros HG HT; [constructor|].
  apply Forall_cons in HG as [[Hh He] HG]. inversion HT as [|? ? ? ? HT1 HT2]; subst.
  pose proof (index_range a x Hh H1 HT1) as HR. destruct (cellIndex_split a g x p HR) as [E1 E2].
  change (cellBox (a :: g) (cellIndex (a :: g) (x :: p))) with
    ((a_min a + inject_Z (cellIndex (a :: g) (x :: p) mod extent a) * a_h a, a_min a + (inject_Z (cellIndex (a :: g) (x :: p) mod extent a) + 1) * a_h a)%Q
      :: cellBox g (cellIndex (a :: g) (x :: p) / extent a)).
  rewrite E1, E2. constructor; [|by apply IH]. simpl. destruct (index_bounds a x Hh). split; [done|]. by apply Qlt_le_weak.
Qed.
Fixpoint sides2 (g : list axis) : Q := match g with [] => 0%Q | a :: g => (sq (a_h a) + sides2 g)%Q end.
Lemma same_cell_close g p q : Forall axis_ok g -> InBounds g p -> BelowTop g p -> InBounds g q -> BelowTop g q ->
  cellIndex g p = cellIndex g q -> (dist2 p q <= sides2 g)%Q.
Proof.
  intros HG HB. revert HG q. induction HB as [|a x g p [H1 H2] HB IH]; intros HG q HT HB' HT' E; inversion HB' as [|? y ? q' [H3 H4] HB2]; subst; simpl; [lra|].
  apply Forall_cons in HG as [[Hh He] HG]. inversion HT as [|? ? ? ? HT1 HT2]; subst. inversion HT' as [|? ? ? ? HT3 HT4]; subst.
  pose proof (index_range a x Hh H1 HT1) as HR. destruct (cellIndex_split a g x p HR) as [E1 E2].
  pose proof (index_range a y Hh H3 HT3) as HR'. destruct (cellIndex_split a g y q' HR') as [E3 E4].
  rewrite E in E1, E2. assert (coord_index a x = coord_index a y) as Ei by congruence. assert (cellIndex g p = cellIndex g q') as Ec by congruence.
  specialize (IH HG q' HT2 HB2 HT4 Ec). destruct (index_bounds a x Hh) as [B1 B2], (index_bounds a y Hh) as [B3 B4]. rewrite Ei in B1, B2.
  set (f := inject_Z (coord_index a y)) in *. clearbody f. unfold sq. assert ((x - y) * (x - y) <= a_h a * a_h a)%Q; [|lra].
  assert (x - y <= a_h a)%Q by lra. assert (- a_h a <= x - y)%Q by lra. nra.
Qed.
Lemma qle_bool_false x y : Qle_bool x y = false <-> (y < x)%Q.
Proof.
  split; intros H.
  - destruct (Qlt_le_dec y x); [done|]. apply Qle_bool_iff in q. congruence.
  - destruct (Qle_bool x y) eqn:E; [|done]. apply Qle_bool_iff in E. lra.
Qed.
Lemma clamp_sq x y lo hi : (lo <= y)%Q -> (y <= hi)%Q -> (sq (x - clamp x lo hi) <= sq (x - y))%Q.
Proof.
  intros H1 H2. unfold clamp, sq. destruct (Qle_bool lo x) eqn:E1; simpl.
  - apply Qle_bool_iff in E1. destruct (Qle_bool x hi) eqn:E2; simpl; [assert (0 <= (x - y) * (x - y))%Q by (destruct (Qlt_le_dec x y); nra); lra|]. apply qle_bool_false in E2. nra.
  - apply qle_bool_false in E1. nra.
Qed.
Lemma boxdist_le p q b : length p = length q -> InBox q b -> (boxdist2 p b <= dist2 p q)%Q.
Proof.
  intros HL HI. revert p HL. induction HI as [|y [lo hi] q b [H1 H2] HI IH]; intros [|x p] HL; simpl in *; try done; try lra.
  pose proof (IH p ltac:(lia)). pose proof (clamp_sq x y lo hi H1 H2). lra.
Qed.

(** when is a point below the top: strictly inside the bounds, or bounds which are not a whole number of cells *)
Lemma below_top a x : axis_ok a -> (x <= a_max a)%Q -> (x < a_max a \/ ~ (inject_Z (extent a) * a_h a == a_max a - a_min a))%Q ->
  (x < a_min a + inject_Z (extent a) * a_h a)%Q.
Proof.
  intros [Hh He] Hx H. assert (a_max a - a_min a <= inject_Z (extent a) * a_h a)%Q as HE.
  { revert He. unfold extent. destruct (Qeq_bool (a_max a - a_min a) 0) eqn:E0; intros He.
    - apply Qeq_bool_iff in E0. change (inject_Z 1) with 1%Q. lra.
    - pose proof (Qle_ceiling ((a_max a - a_min a) / a_h a)) as HC. set (c := inject_Z _) in *.
      assert (a_max a - a_min a == (a_max a - a_min a) / a_h a * a_h a)%Q as Eq by (field; lra).
      set (t := ((a_max a - a_min a) / a_h a)%Q) in *. clearbody t c. rewrite Eq. nra. }
  destruct H as [H|H]; [lra|]. destruct (Qeq_dec (inject_Z (extent a) * a_h a) (a_max a - a_min a)); [done|lra].
Qed.
