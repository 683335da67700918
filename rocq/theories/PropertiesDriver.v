(** The driver of the distributed tree *)
From Coq Require Import QArith Qround Lqa.
From Verif Require Import DriverModel.
Local Open Scope Q_scope.

(** C96.  The options are documented as "skip kNN search" and "skip radius search": no search runs unless it is told to be skipped.  Without arguments none
    of the two searches of the benchmark is done. *)
Theorem C96_options_refuted : exists skip_knn skip_radius shift, let o := parse_options skip_knn skip_radius shift in
  perform_knn_search o <> negb skip_knn /\ perform_radius_search o <> negb skip_radius.
Proof. exists false, false, false. done. Qed.
Theorem C96_inverted skip_knn skip_radius shift : let o := parse_options skip_knn skip_radius shift in
  perform_knn_search o = skip_knn /\ perform_radius_search o = skip_radius /\ shift_queries o = shift.
Proof. done. Qed.

(** The cells of the ranks *)
Lemma rank_cell_ok dim i_max comm_size r : (1 <= dim <= 3 -> comm_size <= i_max ^ dim -> r < comm_size -> exists i j k, rank_cell dim i_max r = Some (i, j, k) /\
  i < i_max /\ j < i_max /\ k < i_max /\ (dim <= 2 -> k = 0) /\ (dim <= 1 -> j = 0) /\ r = i + i_max * (j + i_max * k))%nat.
Proof.
  intros Hd Hc Hr. destruct dim as [|[|[|[|dim]]]]; try lia; cbn [rank_cell Nat.pow] in *.
  - do 3 eexists. split; [done|]. lia.
  - assert (i_max <> 0)%nat as H0 by (intros ->; lia). do 3 eexists. split; [done|]. pose proof (Nat.mod_upper_bound r i_max H0). pose proof (Nat.div_mod r i_max H0).
    assert (r / i_max < i_max)%nat by (apply Nat.div_lt_upper_bound; lia). lia.
  - assert (i_max <> 0)%nat as H0 by (intros ->; lia). do 3 eexists. split; [done|]. pose proof (Nat.mod_upper_bound r i_max H0). pose proof (Nat.div_mod r i_max H0).
    pose proof (Nat.mod_upper_bound (r / i_max) i_max H0). pose proof (Nat.div_mod (r / i_max) i_max H0). rewrite <- Nat.div_div in * by done.
    assert (r / i_max / i_max < i_max)%nat by (repeat (apply Nat.div_lt_upper_bound; [done|]); lia). split; [done|]. split; [done|]. split; [done|]. split; [lia|]. split; [lia|].
    rewrite Nat.div_div by done. rewrite <- (Nat.div_div r i_max i_max) by done. lia.
Qed.
Lemma of_nat_lt m n : (m < n)%nat -> of_nat m + 1 <= of_nat n.
Proof. intros H. unfold of_nat. rewrite <- (inject_Z_plus _ 1). rewrite <- Zle_Qle. lia. Qed.
Lemma of_nat_nonneg n : 0 <= of_nat n.
Proof. unfold of_nat. change 0 with (inject_Z 0). rewrite <- Zle_Qle. lia. Qed.
Lemma apart shift m n u v a : 1 <= shift -> -(1) < u < 1 -> -(1) < v < 1 -> 0 < a -> a * (offset_of shift m + u) == a * (offset_of shift n + v) -> m = n.
Proof.
  intros Hs Hu Hv Ha E. apply Qmult_inj_l in E; [|intros E0; rewrite E0 in Ha; by apply Qlt_irrefl in Ha]. unfold offset_of in E.
  destruct (lt_eq_lt_dec m n) as [[H|H]|H]; [exfalso|done|exfalso]; apply of_nat_lt in H; nra.
Qed.

(** C97.  With a shift of at least 1 the clouds of different ranks do not overlap: no point strictly inside the box of one rank is in the box of another. *)
Theorem C97_apart dim i_max comm_size shift a r r' c c' u v : (1 <= dim <= 3)%nat -> (comm_size <= i_max ^ dim)%nat -> (r < comm_size)%nat -> (r' < comm_size)%nat ->
  1 <= shift -> 0 < a -> rank_cell dim i_max r = Some c -> rank_cell dim i_max r' = Some c' ->
  -(1) < u.1.1 < 1 -> -(1) < u.1.2 < 1 -> -(1) < u.2 < 1 -> -(1) < v.1.1 < 1 -> -(1) < v.1.2 < 1 -> -(1) < v.2 < 1 ->
  let p := cloud_point dim a shift c u in let q := cloud_point dim a shift c' v in p.1.1 == q.1.1 -> p.1.2 == q.1.2 -> p.2 == q.2 -> r = r'.
Proof.
  intros Hd Hc Hr Hr' Hs Ha Ec Ec' U1 U2 U3 V1 V2 V3 p q E1 E2 E3. subst p q.
  destruct (rank_cell_ok dim i_max comm_size r Hd Hc Hr) as (i & j & k & E & _ & _ & _ & K & J & ->). rewrite E in Ec. injection Ec as <-.
  destruct (rank_cell_ok dim i_max comm_size r' Hd Hc Hr') as (i' & j' & k' & E' & _ & _ & _ & K' & J' & ->). rewrite E' in Ec'. injection Ec' as <-.
  cbn [cloud_point fst snd] in *. apply apart in E1; [|done..]. subst i'.
  assert (j = j') as ->.
  { destruct (Nat.ltb_spec 1 dim); [|rewrite J, J' by lia; done]. cbn [on] in E2. rewrite !Qmult_1_r in E2. by apply apart in E2. }
  assert (k = k') as ->.
  { destruct (Nat.ltb_spec 2 dim); [|rewrite K, K' by lia; done]. cbn [on] in E3. rewrite !Qmult_1_r in E3. by apply apart in E3. }
  done.
Qed.
(** The help text says that negative values separate the clouds, too: with a shift of -1/2 the clouds of two ranks have a point in common. *)
Theorem C97_negative_refuted : exists shift c c' u v, shift < 0 /\ rank_cell 1 2 0 = Some c /\ rank_cell 1 2 1 = Some c' /\ -(1) < u.1.1 < 1 /\ -(1) < v.1.1 < 1 /\
  (cloud_point 1 1 shift c u).1.1 == (cloud_point 1 1 shift c' v).1.1.
Proof. exists (-1 # 2), (0, 0, 0)%nat, (1, 0, 0)%nat, (-1 # 2, 0, 0), (1 # 2, 0, 0). repeat split; reflexivity. Qed.

Lemma third_bounds shift n : 0 <= shift -> 0 <= third_of_offset shift n /\ third_of_offset shift n * 3 <= 2 * shift * of_nat n.
Proof.
  intros Hs. unfold third_of_offset, max_offset, to_int. set (q := 2 * shift * of_nat n).
  assert (0 <= q) as Hq by (unfold q; pose proof (of_nat_nonneg n); nra). clearbody q. destruct q as [x d]. cbn [Qnum Qden].
  unfold Qle in Hq. cbn in Hq. assert (0 <= Z.quot x (Zpos d))%Z as H1 by (apply Z.quot_pos; lia).
  assert (0 <= Z.quot (Z.quot x (Zpos d)) 3)%Z as H2 by (apply Z.quot_pos; lia). split.
  - change 0 with (inject_Z 0). by rewrite <- Zle_Qle.
  - unfold Qle, inject_Z. cbn [Qmult Qnum Qden]. rewrite !Z.quot_div_nonneg in * by lia. pose proof (Z.mul_div_le x (Zpos d) ltac:(lia)). pose proof (Z.mul_div_le (x / Zpos d) 3 ltac:(lia)). nia.
Qed.
(** With shift-queries and a shift between 0 and 1 all queries are inside the box of all clouds. *)
Theorem C97_inside dim i_max comm_size shift a r c u : (1 <= dim <= 3)%nat -> (comm_size <= i_max ^ dim)%nat -> (r < comm_size)%nat -> 0 <= shift <= 1 -> 0 <= a ->
  rank_cell dim i_max r = Some c -> -(1) <= u.1.1 <= 1 -> -(1) <= u.1.2 <= 1 -> -(1) <= u.2 <= 1 ->
  let p := query_point dim i_max a shift c u in let hi := a * (offset_of shift (i_max - 1) + 1) in
  -a <= p.1.1 <= hi /\ -a <= p.1.2 <= hi /\ -a <= p.2 <= hi.
Proof.
  intros Hd Hc Hr Hs Ha Ec U1 U2 U3 p hi. destruct (rank_cell_ok dim i_max comm_size r Hd Hc Hr) as (i & j & k & E & Hi & Hj & Hk & _). rewrite E in Ec. injection Ec as <-.
  destruct (third_bounds shift i_max) as [T1 T2]; [apply Hs|]. subst p hi. unfold query_point. cbn [fst snd]. set (m := third_of_offset shift i_max) in *. clearbody m.
  assert (forall l w, (l < i_max)%nat -> -(1) <= w <= 1 -> -(1) <= (offset_of shift l + w) / 3 + m <= offset_of shift (i_max - 1) + 1) as HB.
  { intros l w Hl Hw. assert (of_nat (i_max - 1) == of_nat i_max - 1) as Em by (unfold of_nat; rewrite Nat2Z.inj_sub by lia; unfold Z.sub; rewrite inject_Z_plus; reflexivity).
    pose proof (of_nat_lt l i_max Hl) as Hl'. pose proof (of_nat_nonneg l) as Hl0. unfold offset_of. rewrite Em. set (L := of_nat l) in *. set (M := of_nat i_max) in *. clearbody L M. 
    assert ((2 * shift * L + w) / 3 == (2 * shift * L + w) * (1 # 3)) as -> by reflexivity. split; nra. }
  assert (forall l w b, (l < i_max)%nat -> -(1) <= w <= 1 -> -a <= a * ((offset_of shift l + w) / 3 + m) * on b <= a * (offset_of shift (i_max - 1) + 1)) as HC.
  { intros l w b Hl Hw. destruct (HB l w Hl Hw) as [H1 H2]. set (z := (offset_of shift l + w) / 3 + m) in *. set (h := offset_of shift (i_max - 1) + 1) in *.
    assert (0 <= h) as Hh by (unfold h, offset_of; pose proof (of_nat_nonneg (i_max - 1)); nra). clearbody z h. destruct b; cbn [on]; nra. }
  pose proof (HC i u.1.1 true Hi U1) as H1. cbn [on] in H1. rewrite Qmult_1_r in H1. split; [exact H1|]. split; [exact (HC j _ _ Hj U2)|exact (HC k _ _ Hk U3)].
Qed.
(** But their box is not in the centre: with two ranks, a shift of 1 and a = 1 the clouds fill [-1, 3], the queries [2/3, 2]. *)
Theorem C97_centre_refuted : let x r u := match rank_cell 1 2 r with Some c => (query_point 1 2 1 1 c (u, 0, 0)).1.1 | None => 0 end in
  let y r u := match rank_cell 1 2 r with Some c => (cloud_point 1 1 1 c (u, 0, 0)).1.1 | None => 0 end in
  x 0%nat (-(1)) == 2 # 3 /\ x 1%nat 1 == 2 /\ ~ (x 0%nat (-(1)) + x 1%nat 1 == y 0%nat (-(1)) + y 1%nat 1).
Proof. split; [reflexivity|]. split; [reflexivity|]. intros H. apply Qeq_bool_iff in H. vm_compute in H. discriminate. Qed.

Example C97_example : rank_cell 3 2 5 = Some (1, 0, 1)%nat /\ (5 < 7 /\ 7 <= 2 ^ 3)%nat /\ cloud_point 3 2 1 (1, 0, 1)%nat (1 # 2, 0, -1 # 2) = (2 * (2 * 1 * of_nat 1 + (1 # 2)), 2 * (2 * 1 * of_nat 0 + 0) * 1, 2 * (2 * 1 * of_nat 1 + (-1 # 2)) * 1).
Proof. split; [reflexivity|]. split; [lia|reflexivity]. Qed.

Print Assumptions C96_inverted.
Print Assumptions C96_options_refuted.
Print Assumptions C97_apart.
Print Assumptions C97_negative_refuted.
Print Assumptions C97_inside.
Print Assumptions C97_centre_refuted.
