(** C40, C41: box against triangle, ellipsoid against segment and box, in exact arithmetic. *)
From Coq Require Import QArith Lqa Qfield.
From Verif Require Import Base GeomOps BoxModel ShapeModel ShapeSpec PropertiesShape.
Local Open Scope Q_scope.

(** ** C40 *)
(** A triangle through the box that the test rejects: the block for e_y x bc uses the y coordinates of a and b. *)
Theorem C40_false_negative_refuted : exists mn mx a b c p,
  InBox3 mn mx p /\ InTriangle3 a b c p /\ intersects_box_triangle QOps mn mx a b c = false.
Proof.
  exists (-1, -1, -1), (1, 1, 1), (1, -5, 0), (0, -5, 2), (0, 0, 0), (0, 0, 0). split; [vm_compute; repeat split; discriminate|]. split; [|vm_compute; done].
  exists 0, 0, 1. vm_compute. repeat split; discriminate.
Qed.
(** And a triangle outside the box that it accepts. *)
Theorem C40_false_positive_refuted : exists mn mx a b c,
  (forall p, InBox3 mn mx p -> InTriangle3 a b c p -> False) /\ intersects_box_triangle QOps mn mx a b c = true.
Proof.
  exists (-1, -1, -1), (1, 1, 1), (-1, 0, -2), (-2, 0, 0), (0, 0, -3). split; [|vm_compute; done].
  intros [[x y] z] (B1&B2&B3&B4&B5&B6) (l&m&n&Hl&Hm&Hn&S&E1&E2&E3). unfold at3 in *. cbn [fst snd] in *. lra.
Qed.

(** All other tests are right: none of them rejects a triangle that meets the box. *)
Lemma kabs_cases x : (0 <= x /\ kabs QOps x == x) \/ (x <= 0 /\ kabs QOps x == - x).
Proof. unfold kabs. exact_ops. destruct (Qltb x 0) eqn:E; [apply Qltb_lt in E; right|apply Qltb_ge in E; left]; (split; [lra|reflexivity]). Qed.
Lemma kabs_bound e u x : - e <= u -> u <= e -> - (e * kabs QOps x) <= u * x /\ u * x <= e * kabs QOps x.
Proof. intros H1 H2. destruct (kabs_cases x) as [[Hx ->]|[Hx ->]]; split; nra. Qed.
Lemma axis_ok_true r x y l m : 0 <= l -> 0 <= m -> l + m == 1 -> - r <= l * x + m * y -> l * x + m * y <= r -> axis_ok QOps r x y = true.
Proof.
  intros Hl Hm S H1 H2. unfold axis_ok, kmin, kmax. exact_ops. rewrite negb_true_iff, orb_false_iff, !Qltb_ge.
  destruct (Qltb y x) eqn:E1, (Qltb x y) eqn:E2; rewrite ?Qltb_lt, ?Qltb_ge in *; split; nra.
Qed.
Lemma axis_edge r x y l m u1 e1 d1 u2 e2 d2 f1 f2 : - e1 <= u1 -> u1 <= e1 -> - e2 <= u2 -> u2 <= e2 ->
  (f1 == d1 \/ f1 == - d1) -> (f2 == d2 \/ f2 == - d2) -> r == e1 * kabs QOps d1 + e2 * kabs QOps d2 ->
  0 <= l -> 0 <= m -> l + m == 1 -> l * x + m * y == u1 * f1 + u2 * f2 -> axis_ok QOps r x y = true.
Proof.
  intros H1 H2 H3 H4 F1 F2 Hr Hl Hm S E. destruct (kabs_bound e1 u1 d1 H1 H2), (kabs_bound e2 u2 d2 H3 H4).
  apply (axis_ok_true _ _ _ l m); try done; rewrite E, Hr; clear E Hr.
  all: destruct F1 as [-> | ->], F2 as [-> | ->]; lra.
Qed.
Lemma kabs_le x r : - r <= x -> x <= r -> kabs QOps x <= r.
Proof. intros. destruct (kabs_cases x) as [[_ ->]|[_ ->]]; lra. Qed.
Ltac edge wl wm u1 e1 d1 f1 u2 e2 d2 f2 Ea Eb HL :=
  apply (axis_edge _ _ _ wl wm u1 e1 d1 u2 e2 d2 f1 f2); [assumption|assumption|assumption|assumption|(left; ring) || (right; ring)|(left; ring) || (right; ring)|reflexivity|lra|lra|lra|rewrite Ea, Eb, HL; ring].
Lemma axes_accept e0 e1 e2 a b c q l m n i :
  - e0 <= q.1.1 -> q.1.1 <= e0 -> - e1 <= q.1.2 -> q.1.2 <= e1 -> - e2 <= q.2 -> q.2 <= e2 ->
  0 <= l -> 0 <= m -> 0 <= n -> l + m + n == 1 -> Eq3 q (at3 1 (at3 l a m b) n c) -> i <> 6%nat -> (i < 10)%nat ->
  box_triangle_axes QOps e0 e1 e2 a b c !! i = Some true.
Proof.
  destruct a as [[a0 a1] a2], b as [[b0 b1] b2], c as [[c0 c1] c2], q as [[q0 q1] q2]. intros A1 A2 A3 A4 A5 A6 Hl Hm Hn S (E1&E2&E3) Hi6 Hi.
  unfold at3 in *. cbn [fst snd] in *. unfold box_triangle_axes, sub3, cross3. exact_ops.
  destruct i as [|[|[|[|[|[|[|[|[|[|i]]]]]]]]]]; try lia; cbn [lookup list_lookup]; f_equal; try done.
  { rewrite negb_true_iff, Qltb_ge. set (n0 := (b1 - a1) * (c2 - a2) - _). set (n1 := (b2 - a2) * (c0 - a0) - _). set (n2 := (b0 - a0) * (c1 - a1) - _).
    destruct (kabs_bound e0 q0 n0), (kabs_bound e1 q1 n1), (kabs_bound e2 q2 n2); try done.
    assert (a0 * n0 + a1 * n1 + a2 * n2 == q0 * n0 + q1 * n1 + q2 * n2) as E.
    { rewrite E1, E2, E3. assert (l == 1 - m - n) as -> by lra. unfold n0, n1, n2. ring. }
    apply kabs_le; rewrite E; lra. }
  all: assert (l == 1 - m - n) as HL by lra.
  1: edge (l + m) n q1 e1 (b2 - a2) (- (b2 - a2)) q2 e2 (b1 - a1) (b1 - a1) E2 E3 HL.
  1: edge (l + n) m q1 e1 (c2 - a2) (- (c2 - a2)) q2 e2 (c1 - a1) (c1 - a1) E2 E3 HL.
  1: edge l (m + n) q1 e1 (c2 - b2) (- (c2 - b2)) q2 e2 (c1 - b1) (c1 - b1) E2 E3 HL.
  1: edge (l + m) n q0 e0 (b2 - a2) (b2 - a2) q2 e2 (b0 - a0) (- (b0 - a0)) E1 E3 HL.
  1: edge (l + n) m q0 e0 (c2 - a2) (c2 - a2) q2 e2 (c0 - a0) (- (c0 - a0)) E1 E3 HL.
  1: edge (l + m) n q0 e0 (b1 - a1) (- (b1 - a1)) q1 e1 (b0 - a0) (b0 - a0) E1 E2 HL.
  1: edge (l + n) m q0 e0 (c1 - a1) (- (c1 - a1)) q1 e1 (c0 - a0) (c0 - a0) E1 E2 HL.
  1: edge l (m + n) q0 e0 (c1 - b1) (- (c1 - b1)) q1 e1 (c0 - b0) (c0 - b0) E1 E2 HL.
Qed.

Lemma hull_low u v w r q l m n : 0 <= l -> 0 <= m -> 0 <= n -> l + m + n == 1 -> q == 1 * (l * u + m * v) + n * w -> q <= r -> (u <= r \/ v <= r) \/ w <= r.
Proof.
  intros Hl Hm Hn S E H. destruct (Qlt_le_dec r u), (Qlt_le_dec r v), (Qlt_le_dec r w); try tauto. exfalso.
  assert (0 <= l * (u - r)) by nra. assert (0 <= m * (v - r)) by nra. assert (0 <= n * (w - r)) by nra.
  assert (q - r == l * (u - r) + m * (v - r) + n * (w - r)) as K. { rewrite E. assert (l == 1 - m - n) as -> by lra. ring. }
  destruct (Qlt_le_dec 0 l); [assert (0 < l * (u - r)) by nra; lra|]. destruct (Qlt_le_dec 0 m); [assert (0 < m * (v - r)) by nra; lra|].
  assert (0 < n * (w - r)) by nra. lra.
Qed.
Lemma hull_high u v w r q l m n : 0 <= l -> 0 <= m -> 0 <= n -> l + m + n == 1 -> q == 1 * (l * u + m * v) + n * w -> r <= q -> (r <= u \/ r <= v) \/ r <= w.
Proof.
  intros Hl Hm Hn S E H. destruct (hull_low (- u) (- v) (- w) (- r) (- q) l m n) as [[?|?]|?]; try done; [rewrite E; ring|lra|left; left; lra|left; right; lra|right; lra].
Qed.
Theorem C40_other_axes_partial : forall mn mx a b c p i, InBox3 mn mx p -> InTriangle3 a b c p -> i <> 7%nat ->
  (i < 11)%nat -> box_triangle_tests QOps mn mx a b c !! i = Some true.
Proof.
  intros [[nx ny] nz] [[xx xy] xz] [[ax ay] az] [[bx by_] bz] [[cx cy] cz] [[px py] pz] i (B1&B2&B3&B4&B5&B6) (l&m&n&Hl&Hm&Hn&S&E1&E2&E3) Hi7 Hi.
  unfold at3 in *. cbn [fst snd] in *. unfold box_triangle_tests. change (two QOps) with 2.
  destruct i as [|i]; cbn [lookup list_lookup].
  - f_equal. unfold box_triangle_bounds, intersects_bb. cbv zeta. cbn. rewrite !andb_true_iff, !negb_true_iff, !orb_false_iff, !Qltb_ge, !kmin_le, !kmax_ge.
    repeat match goal with |- _ /\ _ => split end; try done;
      first [by apply (hull_low _ _ _ _ px l m n) | by apply (hull_high _ _ _ _ px l m n) | by apply (hull_low _ _ _ _ py l m n) | by apply (hull_high _ _ _ _ py l m n)
            | by apply (hull_low _ _ _ _ pz l m n) | by apply (hull_high _ _ _ _ pz l m n)].
  - assert (forall x y z, - (y + x) / 2 == - ((y + x) * (1 # 2)) /\ (y - x) / 2 == (y - x) * (1 # 2) /\ z == z) as Hd.
    { intros. split; [field|split; [field|reflexivity]]. }
    apply (axes_accept _ _ _ _ _ _ (px + - (xx + nx) / 2, py + - (xy + ny) / 2, pz + - (xz + nz) / 2) l m n); try done; try lia; unfold Eq3, at3, shift3; exact_ops.
    1-2: destruct (Hd nx xx 0) as (->&->&_); lra.
    1-2: destruct (Hd ny xy 0) as (->&->&_); lra.
    1-2: destruct (Hd nz xz 0) as (->&->&_); lra.
    rewrite E1, E2, E3. assert (l == 1 - m - n) as -> by lra. split; [ring|split; ring].
Qed.
(** In terms of the whole test: a triangle that meets the box can only be missed through that one block. *)
Theorem C40_only_one_axis_wrong_partial : forall mn mx a b c p, InBox3 mn mx p -> InTriangle3 a b c p ->
  intersects_box_triangle QOps mn mx a b c = false -> box_triangle_tests QOps mn mx a b c !! 7%nat = Some false.
Proof.
  intros mn mx a b c p HB HT Hf. unfold intersects_box_triangle in Hf. destruct (box_triangle_tests QOps mn mx a b c !! 7%nat) as [[]|] eqn:E; [|done|].
  - exfalso. apply not_true_iff_false in Hf. apply Hf. apply forallb_forall. intros x Hx. apply elem_of_list_In, elem_of_list_lookup in Hx. destruct Hx as [i Hi].
    destruct (decide (i = 7%nat)) as [->|]; [by simplify_eq|]. rewrite (C40_other_axes_partial mn mx a b c p i) in Hi; [by injection Hi as <-|done|done|done|].
    apply lookup_lt_Some in Hi. destruct mn as [[??]?], mx as [[??]?], a as [[??]?], b as [[??]?], c as [[??]?]. exact Hi.
  - exfalso. apply lookup_ge_None in E. destruct mn as [[??]?], mx as [[??]?], a as [[??]?], b as [[??]?], c as [[??]?]. unfold box_triangle_tests, box_triangle_axes in E. cbn in E. lia.
Qed.
Example C40_example : exists p, InBox3 (0, 0, 0) (1, 1, 1) p /\ InTriangle3 (-1, 0, 0) (3, 1, 0) (0, 2, 2) p /\
  box_triangle_tests QOps (0, 0, 0) (1, 1, 1) (-1, 0, 0) (3, 1, 0) (0, 2, 2) !! 6%nat = Some true.
Proof. exists (2 # 3, 1, 2 # 3). split; [vm_compute; repeat split; discriminate|]. split; [|vm_compute; done]. exists (1 # 3), (1 # 3), (1 # 3). vm_compute. repeat split; discriminate. Qed.
Print Assumptions C40_false_negative_refuted.
Print Assumptions C40_false_positive_refuted.
Print Assumptions C40_only_one_axis_wrong_partial.
