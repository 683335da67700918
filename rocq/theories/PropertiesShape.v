(** C38: segments, triangles and tetrahedra in exact arithmetic. *)
From Coq Require Import QArith Lqa Qfield.
From Verif Require Import Base GeomOps BoxModel ShapeModel ShapeSpec.
Local Open Scope Q_scope.

Ltac exact_ops := cbn [o_zero o_one o_add o_sub o_mul o_div o_opp o_sqrt o_ltb o_leb o_eqb QOps fst snd] in *.

(** ** Triangles in the plane *)
Theorem C38_triangle_barycentric : forall a b c p,
  (area a b c == 0 /\ barycentric2 QOps a b c p = None) \/
  (~ area a b c == 0 /\ exists l m n, barycentric2 QOps a b c p = Some (l, m, n) /\ Weights2 a b c p l m n /\
    forall l' m' n', Weights2 a b c p l' m' n' -> l' == l /\ m' == m /\ n' == n).
Proof.
  intros [ax ay] [bx by_] [cx cy] [px py]. unfold barycentric2, area. exact_ops.
  destruct (Qeq_bool ((cy - ay) * (bx - ax) - (cx - ax) * (by_ - ay)) 0) eqn:E.
  - apply Qeq_bool_iff in E. left. split; [|done]. rewrite <- E. ring.
  - apply Qeq_bool_neq in E. right. split; [intros H; apply E; rewrite <- H; ring|].
    do 3 eexists. split; [done|]. unfold Weights2, Eq2, at2. cbn [fst snd]. split.
    + split; [ring|]. split; field; intros H; apply E; rewrite <- H; ring.
    + intros l m n (H1&H2&H3). assert (l == 1 - m - n) as Hl by lra.
      assert (px - ax == m * (bx - ax) + n * (cx - ax)) as Hx by (rewrite H2, Hl; ring).
      assert (py - ay == m * (by_ - ay) + n * (cy - ay)) as Hy by (rewrite H3, Hl; ring).
      rewrite Hl, Hx, Hy. split; [|split]; field; intros H; apply E; rewrite <- H; ring.
Qed.

Theorem C38_point_triangle : forall a b c p, ~ area a b c == 0 ->
  exists r, intersects_point_triangle QOps a b c p = Some r /\ (r = true <-> InTriangle2 a b c p).
Proof.
  intros a b c p Hd. unfold intersects_point_triangle. destruct (C38_triangle_barycentric a b c p) as [[H _]|(_&l&m&n&->&HW&HU)]; [done|].
  cbn [mbind option_bind]. eexists. split; [done|]. exact_ops. rewrite !andb_true_iff, !Qle_bool_iff. split.
  - intros [[Hl Hm] Hn]. exists l, m, n. done.
  - intros (l'&m'&n'&Hl&Hm&Hn&HW'). destruct (HU _ _ _ HW') as (E1&E2&E3). split; [split|]; lra.
Qed.

(** ** Tetrahedra *)
Theorem C38_tet_barycentric : forall a b c d p, ~ volume a b c d == 0 ->
  let '(l, m, n, o) := barycentric3 QOps a b c d p in Weights3 a b c d p l m n o /\
    forall l' m' n' o', Weights3 a b c d p l' m' n' o' -> l' == l /\ m' == m /\ n' == n /\ o' == o.
Proof.
  intros [[ax ay] az] [[bx by_] bz] [[cx cy] cz] [[dx dy] dz] [[px py] pz] Hv.
  unfold barycentric3, triple, Weights3, Eq3, at3, volume in *. unfold sub3, cross3, dot3. exact_ops.
  split.
  - split; [|split; [|split]]; field; intros H; apply Hv; rewrite <- H; ring.
  - intros l m n o (H1&H2&H3&H4). assert (l == 1 - m - n - o) as Hl by lra. rewrite Hl in H2, H3, H4.
    rewrite H2, H3, H4, Hl. split; [|split; [|split]]; field; intros H; apply Hv; rewrite <- H; ring.
Qed.

Lemma same_half_space_ok a b c d p l m n o : Weights3 a b c d p l m n o -> ~ volume a b c d == 0 ->
  same_half_space QOps a b c d p = true <-> 0 <= o.
Proof.
  destruct a as [[ax ay] az], b as [[bx by_] bz], c as [[cx cy] cz], d as [[dx dy] dz], p as [[px py] pz].
  unfold same_half_space, Weights3, Eq3, at3, volume, sub3, cross3, dot3. exact_ops. intros (H1&H2&H3&H4) Hv. rewrite Qle_bool_iff.
  assert (l == 1 - m - n - o) as Hl by lra. rewrite Hl in H2, H3, H4. rewrite H2, H3, H4. clear H1 H2 H3 H4 Hl.
  set (V := (bx - ax) * ((cy - ay) * (dz - az) - (cz - az) * (dy - ay)) + (by_ - ay) * ((cz - az) * (dx - ax) - (cx - ax) * (dz - az)) +
       (bz - az) * ((cx - ax) * (dy - ay) - (cy - ay) * (dx - ax))) in *.
  match goal with |- 0 <= ?e <-> _ => assert (e == o * (V * V)) as -> by (unfold V; ring) end.
  clearbody V. assert (0 < V * V) as HV by (destruct (Qlt_le_dec V 0); [nra|]; destruct (Qle_lt_or_eq 0 V) as [?|?]; [done|nra|exfalso; apply Hv; symmetry; done]).
  split; intros H; [|nra]. destruct (Qlt_le_dec o 0) as [Ho|]; [|done]. exfalso. assert (o * (V * V) < 0) by nra. lra.
Qed.
Lemma Weights3_rot a b c d p l m n o : Weights3 a b c d p l m n o -> Weights3 b c d a p m n o l.
Proof.
  unfold Weights3, Eq3, at3. cbn [fst snd]. intros (H1&H2&H3&H4). split; [lra|]. rewrite H2, H3, H4. split; [|split]; ring.
Qed.
Lemma volume_rot a b c d : volume b c d a == - volume a b c d.
Proof. unfold volume. ring. Qed.

Theorem C38_point_tet : forall a b c d p, ~ volume a b c d == 0 -> intersects_point_tet QOps a b c d p = true <-> InTet a b c d p.
Proof.
  intros a b c d p Hv. pose proof (C38_tet_barycentric a b c d p Hv) as HB. destruct (barycentric3 QOps a b c d p) as [[[l m] n] o]. destruct HB as [HW HU].
  assert (~ volume b c d a == 0) as Hv1 by (rewrite volume_rot; intros H; apply Hv; lra).
  assert (~ volume c d a b == 0) as Hv2 by (rewrite volume_rot; intros H; apply Hv1; lra).
  assert (~ volume d a b c == 0) as Hv3 by (rewrite volume_rot; intros H; apply Hv2; lra).
  pose proof (Weights3_rot _ _ _ _ _ _ _ _ _ HW) as HW1. pose proof (Weights3_rot _ _ _ _ _ _ _ _ _ HW1) as HW2. pose proof (Weights3_rot _ _ _ _ _ _ _ _ _ HW2) as HW3.
  unfold intersects_point_tet. rewrite !andb_true_iff, (same_half_space_ok a b c d p l m n o), (same_half_space_ok b c d a p m n o l),
    (same_half_space_ok c d a b p n o l m), (same_half_space_ok d a b c p o l m n) by done.
  split.
  - intros [[[H1 H2] H3] H4]. exists l, m, n, o. done.
  - intros (l'&m'&n'&o'&H1&H2&H3&H4&HW'). destruct (HU _ _ _ _ HW') as (E1&E2&E3&E4). split; [split; [split|]|]; lra.
Qed.

(** ** Segments in the plane *)
Definition orient (a b c : Q2) : Q := (b.2 - a.2) * (c.1 - b.1) - (b.1 - a.1) * (c.2 - b.2).
Lemma orientation_ok a b c : orientation QOps a b c = sgn QOps (orient a b c).
Proof. destruct a, b, c. done. Qed.
Lemma sgn_cases x : (0 < x /\ sgn QOps x = 1%Z) \/ (x == 0 /\ sgn QOps x = 0%Z) \/ (x < 0 /\ sgn QOps x = (-1)%Z).
Proof.
  unfold sgn. exact_ops. destruct (Qltb 0 x) eqn:E1, (Qltb x 0) eqn:E2; rewrite ?Qltb_lt, ?Qltb_ge in *; [lra|left; done|right; right; done|right; left; split; [lra|done]].
Qed.
Lemma kmin_le a b x : kmin QOps a b <= x <-> (a <= x \/ b <= x).
Proof. unfold kmin. exact_ops. destruct (Qltb b a) eqn:E; rewrite ?Qltb_lt, ?Qltb_ge in E; split; intros H; try (match type of H with _ \/ _ => destruct H end); lra || (left; lra) || (right; lra). Qed.
Lemma kmax_ge a b x : x <= kmax QOps a b <-> (x <= a \/ x <= b).
Proof. unfold kmax. exact_ops. destruct (Qltb a b) eqn:E; rewrite ?Qltb_lt, ?Qltb_ge in E; split; intros H; try (match type of H with _ \/ _ => destruct H end); lra || (left; lra) || (right; lra). Qed.

(** A point of the line within the bounding box is on the segment, and conversely. *)
Lemma between a b x : (a <= x \/ b <= x) -> (x <= a \/ x <= b) -> (a <= x /\ x <= b) \/ (b <= x /\ x <= a).
Proof. intros H1 H2. destruct (Qlt_le_dec x a), (Qlt_le_dec x b), H1, H2; (left; lra) || (right; lra) || lra. Qed.
Lemma between_ratio a b x : (a <= x /\ x <= b) \/ (b <= x /\ x <= a) -> ~ a == b -> 0 <= (x - a) / (b - a) /\ (x - a) / (b - a) <= 1.
Proof.
  intros H Hne. destruct (Qlt_le_dec a b) as [L|L].
  - assert (a <= x /\ x <= b) as [H1 H2] by (destruct H; lra). split; [apply Qle_shift_div_l|apply Qle_shift_div_r]; lra.
  - assert (b <= x /\ x <= a) as [H1 H2] by (destruct H; lra).
    assert ((x - a) / (b - a) == (a - x) / (a - b)) as -> by (field; split; lra).
    destruct (Qle_lt_or_eq _ _ L) as [?|?]; [|exfalso; apply Hne; symmetry; done]. split; [apply Qle_shift_div_l|apply Qle_shift_div_r]; lra.
Qed.
Lemma on_segment_ok a b p : orient a b p == 0 -> on_segment QOps (a, b) p = true <-> InSegment2 a b p.
Proof.
  destruct a as [ax ay], b as [bx by_], p as [px py]. unfold orient, on_segment, InSegment2, Eq2, at2. exact_ops. intros Ho.
  rewrite !andb_true_iff, !Qle_bool_iff, !kmin_le, !kmax_ge. split.
  - intros [[[H1 H2] H3] H4]. destruct (Qeq_dec ax bx) as [Ex|Ex].
    + destruct (Qeq_dec ay by_) as [Ey|Ey].
      * exists 0. destruct (between _ _ _ H1 H2), (between _ _ _ H3 H4); repeat split; lra.
      * destruct (between_ratio ay by_ py (between _ _ _ H3 H4) Ey) as [R1 R2]. exists ((py - ay) / (by_ - ay)). split; [done|]. split; [done|].
        split; [destruct (between _ _ _ H1 H2); rewrite <- Ex; assert (px == ax) as -> by lra; field; intros Hc; apply Ey; lra|field; intros Hc; apply Ey; lra].
    + destruct (between_ratio ax bx px (between _ _ _ H1 H2) Ex) as [R1 R2]. exists ((px - ax) / (bx - ax)). split; [done|]. split; [done|].
      assert (~ bx - ax == 0) as Hd by (intros H; apply Ex; lra).
      split; [field; done|]. assert (py - by_ == (by_ - ay) * (px - bx) / (bx - ax)) as E by (rewrite <- (Qdiv_mult_l (py - by_) (bx - ax)) by done; apply Qdiv_comp; [lra|done]).
      assert (py == by_ + (by_ - ay) * (px - bx) / (bx - ax)) as -> by lra. field. done.
  - intros (t&H1&H2&Ex&Ey). rewrite Ex, Ey. clear -H1 H2. destruct (Qlt_le_dec ax bx), (Qlt_le_dec ay by_).
    all: repeat split; ((left; nra) || (right; nra)).
Qed.

Lemma orient_combine a b c d s t : orient a b (at2 s c t d) == s * orient a b c + t * orient a b d + (1 - s - t) * orient a b (0, 0).
Proof. unfold orient, at2. cbn [fst snd]. ring. Qed.
Lemma orient_self a b s : orient a b (at2 (1 - s) a s b) == 0.
Proof. unfold orient, at2. cbn [fst snd]. ring. Qed.
Lemma orient_eq2 a b p q : Eq2 p q -> orient a b p == orient a b q.
Proof. intros [H1 H2]. unfold orient. rewrite H1, H2. reflexivity. Qed.
Lemma Eq2_sym p q : Eq2 p q -> Eq2 q p. Proof. intros [? ?]. split; by symmetry. Qed.
Lemma Eq2_trans p q r : Eq2 p q -> Eq2 q r -> Eq2 p r.
Proof. intros [H1 H2] [H3 H4]. split; etransitivity; done. Qed.
Lemma same_sign_zero x y t : sgn QOps x = sgn QOps y -> 0 <= t -> t <= 1 -> (1 - t) * x + t * y == 0 -> x == 0 /\ y == 0.
Proof.
  intros Hs H1 H2 E. destruct (sgn_cases x) as [[Hx Ex]|[[Hx Ex]|[Hx Ex]]], (sgn_cases y) as [[Hy Ey]|[[Hy Ey]|[Hy Ey]]]; try congruence; [exfalso; nra|done|exfalso; nra].
Qed.
Lemma InSegment2_eq a b p q : Eq2 p q -> InSegment2 a b p -> InSegment2 a b q.
Proof. intros E (t&H1&H2&H3). exists t. split; [done|]. split; [done|]. eapply Eq2_trans; [by apply Eq2_sym|done]. Qed.

Theorem C38_segment_segment : forall s1 s2, intersects_segment_segment QOps s1 s2 = true <->
  exists p, InSegment2 s1.1 s1.2 p /\ InSegment2 s2.1 s2.2 p.
Proof.
  intros [a b] [c d]. unfold intersects_segment_segment. cbn [fst snd]. rewrite !orientation_ok.
  set (X1 := orient a b c). set (X2 := orient a b d). set (X3 := orient c d a). set (X4 := orient c d b).
  assert (forall x y, sgn QOps x <> sgn QOps y -> ~ x - y == 0 /\ 0 <= x / (x - y) /\ x / (x - y) <= 1) as Hratio.
  { intros x y H. assert (~ x - y == 0) as Hn.
    { intros E. apply H. assert (x == y) as Exy by lra. destruct (sgn_cases x) as [[Hx Ex]|[[Hx Ex]|[Hx Ex]]], (sgn_cases y) as [[Hy Ey]|[[Hy Ey]|[Hy Ey]]]; try congruence; lra. }
    split; [done|]. destruct (Qlt_le_dec 0 (x - y)) as [L|L].
    - split; [apply Qle_shift_div_l|apply Qle_shift_div_r]; try lra; destruct (sgn_cases x) as [[Hx Ex]|[[Hx Ex]|[Hx Ex]]], (sgn_cases y) as [[Hy Ey]|[[Hy Ey]|[Hy Ey]]]; try congruence; lra.
    - assert (0 < y - x) as L' by (destruct (Qle_lt_or_eq _ _ L); [lra|done]). assert (x / (x - y) == (- x) / (y - x)) as -> by (field; split; lra).
      split; [apply Qle_shift_div_l|apply Qle_shift_div_r]; try lra; destruct (sgn_cases x) as [[Hx Ex]|[[Hx Ex]|[Hx Ex]]], (sgn_cases y) as [[Hy Ey]|[[Hy Ey]|[Hy Ey]]]; try congruence; lra. }
  assert (X1 - X2 == - (X3 - X4)) as HD by (unfold X1, X2, X3, X4, orient; ring).
  assert (forall x, Z.eqb (sgn QOps x) 0 = true <-> x == 0) as Hz.
  { intros x. rewrite Z.eqb_eq. destruct (sgn_cases x) as [[Hx ->]|[[Hx ->]|[Hx ->]]]; split; (done || (intros; exfalso; lra) || lia). }
  assert (forall u v, InSegment2 u v u) as Hu by (intros u v; exists 0; unfold Eq2, at2; cbn [fst snd]; repeat split; lra).
  assert (forall u v, InSegment2 u v v) as Hv by (intros u v; exists 1; unfold Eq2, at2; cbn [fst snd]; repeat split; lra).
  destruct (negb (Z.eqb (sgn QOps X1) (sgn QOps X2)) && negb (Z.eqb (sgn QOps X3) (sgn QOps X4))) eqn:Hgen.
  { split; [intros _|done]. apply andb_true_iff in Hgen as [H1 H2]. rewrite negb_true_iff, Z.eqb_neq in H1, H2.
    destruct (Hratio _ _ H1) as (N1&R1&R2), (Hratio _ _ H2) as (N2&R3&R4).
    exists (at2 (1 - X3 / (X3 - X4)) a (X3 / (X3 - X4)) b). split; [exists (X3 / (X3 - X4)); repeat split; done|].
    exists (X1 / (X1 - X2)). split; [done|]. split; [done|]. unfold Eq2, at2. cbn [fst snd].
    unfold X1, X2, X3, X4, orient in *. split; field; split; intros H; (apply N1; rewrite <- H; ring) || (apply N2; rewrite <- H; ring). }
  split.
  - intros H. repeat match type of H with (if ?b then true else _) = true => destruct b eqn:?E end; [exists c|exists d|exists a|exists b|done].
    all: match goal with E : _ && _ = true |- _ => apply andb_true_iff in E as [HA HB] end; apply Hz in HA.
    + split; [by apply on_segment_ok|apply Hu].
    + split; [by apply on_segment_ok|apply Hv].
    + split; [apply Hu|by apply on_segment_ok].
    + split; [apply Hv|by apply on_segment_ok].
  - intros (p&Hp1&Hp2).
    (* some end point lies on the other segment *)
    assert ((X1 == 0 /\ InSegment2 a b c) \/ (X2 == 0 /\ InSegment2 a b d) \/ (X3 == 0 /\ InSegment2 c d a) \/ (X4 == 0 /\ InSegment2 c d b)) as Hend.
    { destruct Hp1 as (s&S1&S2&Es), Hp2 as (t&T1&T2&Et).
      assert ((1 - t) * X1 + t * X2 == 0) as Z1.
      { pose proof (orient_combine a b c d (1 - t) t) as E. rewrite <- (orient_eq2 a b _ _ Et), (orient_eq2 a b _ _ Es), orient_self in E. unfold X1, X2. rewrite E. ring. }
      assert ((1 - s) * X3 + s * X4 == 0) as Z2.
      { pose proof (orient_combine c d a b (1 - s) s) as E. rewrite <- (orient_eq2 c d _ _ Es), (orient_eq2 c d _ _ Et), orient_self in E. unfold X3, X4. rewrite E. ring. }
      assert (X1 - X2 == 0) as HD0.
      { apply andb_false_iff in Hgen as [H|H]; rewrite negb_false_iff, Z.eqb_eq in H.
        - destruct (same_sign_zero _ _ t H T1 T2 Z1). lra.
        - destruct (same_sign_zero _ _ s H S1 S2 Z2). lra. }
      assert (X1 == 0) as E1 by nra. assert (X2 == 0) as E2 by nra. assert (X3 == 0) as E3 by nra. assert (X4 == 0) as E4 by nra.
      (* all four points on a line *)
      destruct a as [ax ay], b as [bx by_], c as [cx cy], d as [dx dy], p as [px py].
      destruct Es as [Esx Esy], Et as [Etx Ety]. unfold at2 in *. cbn [fst snd] in *.
      assert (forall k : Q, (~ bx - ax == 0 -> k == (cx - ax) / (bx - ax)) -> True) as _ by done.
      assert (exists g h, cx - ax == g * (bx - ax) /\ cy - ay == g * (by_ - ay) /\ dx - ax == h * (bx - ax) /\ dy - ay == h * (by_ - ay) /\ s == (1 - t) * g + t * h \/
        (bx == ax /\ by_ == ay)) as (g&h&Hgh).
      { unfold X1, X2, orient in E1, E2. cbn [fst snd] in E1, E2. destruct (Qeq_dec (bx - ax) 0) as [Nx|Nx].
        - destruct (Qeq_dec (by_ - ay) 0) as [Ny|Ny]; [exists 0, 0; right; split; lra|].
          exists ((cy - ay) / (by_ - ay)), ((dy - ay) / (by_ - ay)). left.
          assert ((by_ - ay) * (cx - bx) == 0) as F1 by (rewrite Nx in E1; lra). assert ((by_ - ay) * (dx - bx) == 0) as F2 by (rewrite Nx in E2; lra).
          apply Qmult_integral in F1 as [?|F1]; [done|]. apply Qmult_integral in F2 as [?|F2]; [done|].
          split; [rewrite Nx; lra|]. split; [field; done|]. split; [rewrite Nx; lra|]. split; [field; done|].
          assert (s * (by_ - ay) == ((1 - t) * ((cy - ay) / (by_ - ay)) + t * ((dy - ay) / (by_ - ay))) * (by_ - ay)) as E.
          { transitivity (py - ay); [rewrite Esy; ring|]. rewrite Ety. field. done. }
          by apply Qmult_inj_r in E.
        - exists ((cx - ax) / (bx - ax)), ((dx - ax) / (bx - ax)). left.
          split; [field; done|]. split. { apply (Qmult_inj_r _ _ (bx - ax)); [done|]. transitivity ((cx - ax) * (by_ - ay)); [|field; done]. lra. }
          split; [field; done|]. split. { apply (Qmult_inj_r _ _ (bx - ax)); [done|]. transitivity ((dx - ax) * (by_ - ay)); [|field; done]. lra. }
          assert (s * (bx - ax) == ((1 - t) * ((cx - ax) / (bx - ax)) + t * ((dx - ax) / (bx - ax))) * (bx - ax)) as E.
          { transitivity (px - ax); [rewrite Esx; ring|]. rewrite Etx. field. done. }
          by apply Qmult_inj_r in E. }
      destruct Hgh as [(G1&G2&G3&G4&Gs)|[Dx Dy]].
      2:{ right; right; left. split; [done|]. exists t. unfold Eq2, at2. cbn [fst snd]. split; [done|]. split; [done|]. split; [rewrite <- Etx, Esx, Dx; ring|rewrite <- Ety, Esy, Dy; ring]. }
      destruct (Qlt_le_dec g 0) as [g0|g0]; destruct (Qlt_le_dec 1 g) as [g1|g1]; try (exfalso; lra).
      + destruct (Qlt_le_dec h 0) as [h0|h0]; [exfalso; nra|]. destruct (Qlt_le_dec 1 h) as [h1|h1].
        * right; right; left. split; [done|]. exists (- g / (h - g)). assert (0 < h - g) as Hhg by lra. unfold Eq2, at2. cbn [fst snd].
          split; [apply Qle_shift_div_l; lra|]. split; [apply Qle_shift_div_r; lra|].
          assert (cx == ax + g * (bx - ax)) as -> by lra. assert (cy == ay + g * (by_ - ay)) as -> by lra.
          assert (dx == ax + h * (bx - ax)) as -> by lra. assert (dy == ay + h * (by_ - ay)) as -> by lra.
          split; field; lra.
        * right; left. split; [done|]. exists h. unfold Eq2, at2. cbn [fst snd]. repeat split; lra.
      + destruct (Qlt_le_dec h 0) as [h0|h0].
        * right; right; left. split; [done|]. exists (g / (g - h)). assert (0 < g - h) as Hhg by lra. unfold Eq2, at2. cbn [fst snd].
          split; [apply Qle_shift_div_l; lra|]. split; [apply Qle_shift_div_r; lra|].
          assert (cx == ax + g * (bx - ax)) as -> by lra. assert (cy == ay + g * (by_ - ay)) as -> by lra.
          assert (dx == ax + h * (bx - ax)) as -> by lra. assert (dy == ay + h * (by_ - ay)) as -> by lra.
          split; field; lra.
        * destruct (Qlt_le_dec 1 h) as [h1|h1]; [exfalso; clear -g1 h1 Gs T1 T2 S2; assert (0 <= (1 - t) * (g - 1)) by nra; destruct (Qlt_le_dec 0 t); [assert (0 < t * (h - 1)) by nra; lra|assert (t == 0) as E by lra; rewrite E in Gs; lra]|]. right; left. split; [done|]. exists h. unfold Eq2, at2. cbn [fst snd]. repeat split; lra.
      + left. split; [done|]. exists g. unfold Eq2, at2. cbn [fst snd]. repeat split; lra. }
    destruct Hend as [[E H]|[[E H]|[[E H]|[E H]]]]; pose proof E as E'; apply Hz in E'; apply (proj2 (on_segment_ok _ _ _ E)) in H; rewrite E', H; cbn [andb];
      repeat match goal with |- context [if ?b then true else _] => destruct b end; done.
Qed.

(** From a point of the box towards a point outside one meets a wall of the box. *)
Lemma box_wall mn mx w q : mn.1 <= mx.1 -> mn.2 <= mx.2 -> ~ InBox2 mn mx w -> InBox2 mn mx q ->
  exists r, InSegment2 q w r /\ InBox2 mn mx r /\ (r.1 == mn.1 \/ r.1 == mx.1 \/ r.2 == mn.2 \/ r.2 == mx.2).
Proof.
  destruct mn as [nx ny], mx as [xx xy]. intros Hx Hy. destruct w as [wx wy]. intros Hw. destruct q as [qx qy]. intros (Q1&Q2&Q3&Q4). cbn [fst snd] in *.
      (* the least parameter at which a wall is reached, first in x and then in y *)
      assert (forall lo hi q w, lo <= q -> q <= hi -> exists t, 0 <= t /\ t <= 1 /\ (forall s, 0 <= s -> s <= t -> lo <= q + s * (w - q) /\ q + s * (w - q) <= hi) /\
        ((lo <= w /\ w <= hi /\ t == 1) \/ (q + t * (w - q) == lo \/ q + t * (w - q) == hi))) as Haxis.
      { clear. intros lo hi q w H1 H2. destruct (Qlt_le_dec w lo) as [L|L].
        - assert (0 < q - w) by lra. exists ((q - lo) / (q - w)). split; [apply Qle_shift_div_l; lra|]. split; [apply Qle_shift_div_r; lra|].
          assert ((q - lo) / (q - w) * (q - w) == q - lo) as E by (field; lra). split; [|right; left; lra]. intros s S1 S2. split; [|nra].
          assert (s * (q - w) <= (q - lo) / (q - w) * (q - w)) by nra. lra.
        - destruct (Qlt_le_dec hi w) as [M|M].
          + assert (0 < w - q) by lra. exists ((hi - q) / (w - q)). split; [apply Qle_shift_div_l; lra|]. split; [apply Qle_shift_div_r; lra|].
            assert ((hi - q) / (w - q) * (w - q) == hi - q) as E by (field; lra). split; [|right; right; lra]. intros s S1 S2. split; [nra|].
            assert (s * (w - q) <= (hi - q) / (w - q) * (w - q)) by nra. lra.
          + exists 1. split; [lra|]. split; [lra|]. split; [|left; split; [done|]; split; [done|lra]]. intros s S1 S2. split; nra. }
      destruct (Haxis nx xx qx wx Q1 Q2) as (t&T1&T2&Tin&Twall). destruct (Haxis ny xy qy wy Q3 Q4) as (s&S1&S2&Sin&Swall).
      assert (forall r, 0 <= r -> r <= t -> r <= s -> InSegment2 (qx, qy) (wx, wy) (qx + r * (wx - qx), qy + r * (wy - qy)) /\ InBox2 (nx, ny) (xx, xy) (qx + r * (wx - qx), qy + r * (wy - qy))) as Hr.
      { intros r R1 R2 R3. split.
        - exists r. unfold Eq2, at2. cbn [fst snd]. repeat split; lra.
        - destruct (Tin r R1 R2), (Sin r R1 R3). done. }
      destruct (Qlt_le_dec s t) as [L|L].
      - exists (qx + s * (wx - qx), qy + s * (wy - qy)). destruct (Hr s S1 ltac:(lra) ltac:(lra)) as [A B]. split; [done|]. split; [done|]. cbn [fst snd].
        destruct Swall as [(F1&F2&F3)|Swall]; [exfalso; lra|]. tauto.
      - exists (qx + t * (wx - qx), qy + t * (wy - qy)). destruct (Hr t T1 ltac:(lra) ltac:(lra)) as [A B]. split; [done|]. split; [done|]. cbn [fst snd].
        destruct Twall as [(F1&F2&F3)|Twall]; [|tauto]. destruct Swall as [(F4&F5&F6)|[Sw|Sw]].
        + exfalso. apply Hw. done.
        + right; right; left. assert (s == t) as <- by lra. done.
        + right; right; right. assert (s == t) as <- by lra. done.
Qed.
(** A point of a wall is on that edge of the box. *)
Lemma wall_edge mn mx r : InBox2 mn mx r -> (r.1 == mn.1 \/ r.1 == mx.1 \/ r.2 == mn.2 \/ r.2 == mx.2) ->
  InSegment2 mn (mn.1, mx.2) r \/ InSegment2 mn (mx.1, mn.2) r \/ InSegment2 mx (mn.1, mx.2) r \/ InSegment2 mx (mx.1, mn.2) r.
Proof.
  intros HrB Hw.
    assert (forall lo hi x, lo <= x -> x <= hi -> exists t, 0 <= t /\ t <= 1 /\ x == lo + t * (hi - lo)) as Hpar.
    { clear. intros lo hi x H1 H2. destruct (Qeq_dec lo hi) as [E|E]; [exists 0; repeat split; lra|].
      exists ((x - lo) / (hi - lo)). assert (0 < hi - lo) by (destruct (Qlt_le_dec lo hi); [lra|exfalso; apply E; lra]).
      split; [apply Qle_shift_div_l; lra|]. split; [apply Qle_shift_div_r; lra|]. field. lra. }
    destruct HrB as (R1&R2&R3&R4). destruct (Hpar _ _ _ R1 R2) as (tx&X1&X2&X3). destruct (Hpar _ _ _ R3 R4) as (ty&Y1&Y2&Y3).
    destruct Hw as [W|[W|[W|W]]].
    + left. exists ty. unfold Eq2, at2. cbn [fst snd]. repeat split; lra.
    + right; right; right. exists (1 - ty). unfold Eq2, at2. cbn [fst snd]. repeat split; lra.
    + right; left. exists tx. unfold Eq2, at2. cbn [fst snd]. repeat split; lra.
    + right; right; left. exists (1 - tx). unfold Eq2, at2. cbn [fst snd]. repeat split; lra.
Qed.

(** Segment against box, in the plane. *)
Theorem C38_segment_box : forall s mn mx, mn.1 <= mx.1 -> mn.2 <= mx.2 ->
  intersects_segment_box QOps s mn mx = true <-> exists p, InSegment2 s.1 s.2 p /\ InBox2 mn mx p.
Proof.
  intros [a b] mn mx Hx Hy. unfold intersects_segment_box. cbn [fst snd].
  assert (forall p, in_box2 QOps p mn mx = true <-> InBox2 mn mx p) as Hin.
  { intros p. unfold in_box2, InBox2. exact_ops. rewrite andb_true_iff, !negb_true_iff, !orb_false_iff, !Qltb_ge. tauto. }
  assert (forall u v, InSegment2 u v u) as Hu by (intros u v; exists 0; unfold Eq2, at2; cbn [fst snd]; repeat split; lra).
  assert (forall u v, InSegment2 u v v) as Hv by (intros u v; exists 1; unfold Eq2, at2; cbn [fst snd]; repeat split; lra).
  destruct (in_box2 QOps a mn mx) eqn:Ea; cbn [orb].
  { split; [intros _|done]. exists a. split; [apply Hu|by apply Hin]. }
  destruct (in_box2 QOps b mn mx) eqn:Eb.
  { split; [intros _|done]. exists b. split; [apply Hv|by apply Hin]. }
  rewrite !orb_true_iff, !C38_segment_segment. cbn [fst snd].
  assert (forall u v, InBox2 mn mx u -> InBox2 mn mx v -> forall p, InSegment2 u v p -> InBox2 mn mx p) as Hconv.
  { intros u v (U1&U2&U3&U4) (V1&V2&V3&V4) p (t&T1&T2&[E1 E2]). unfold InBox2. rewrite E1, E2. unfold at2. cbn [fst snd]. repeat split; nra. }
  assert (InBox2 mn mx mn) as C1 by (repeat split; lra). assert (InBox2 mn mx mx) as C2 by (repeat split; lra).
  assert (InBox2 mn mx (mn.1, mx.2)) as C3 by (unfold InBox2; cbn [fst snd]; repeat split; lra).
  assert (InBox2 mn mx (mx.1, mn.2)) as C4 by (unfold InBox2; cbn [fst snd]; repeat split; lra).
  split.
  - intros [[[(p&H1&H2)|(p&H1&H2)]|(p&H1&H2)]|(p&H1&H2)]; exists p; (split; [done|]); [apply (Hconv _ _ C1 C3)|apply (Hconv _ _ C1 C4)|apply (Hconv _ _ C2 C3)|apply (Hconv _ _ C2 C4)]; done.
  - intros (p&Hp&HB). apply not_true_iff_false in Ea, Eb. rewrite Hin in Ea, Eb.
    (* a is outside: leave p towards a and stop at the wall a is beyond *)
    destruct (box_wall mn mx a p Hx Hy Ea HB) as (r&Hr&HrB&Hw).
    assert (InSegment2 a b r) as Hr'.
    { destruct Hp as (t&T1&T2&[E1 E2]), Hr as (s&S1&S2&[E3 E4]). unfold at2 in *. cbn [fst snd] in *. exists ((1 - s) * t). split; [nra|]. split; [nra|].
      unfold Eq2, at2. cbn [fst snd]. rewrite E3, E4, E1, E2. split; ring. }
    destruct (wall_edge mn mx r HrB Hw) as [?|[?|[?|?]]]; [left; left; left|left; left; right|left; right|right]; by exists r.
Qed.

(** The hypotheses are met: a proper triangle and tetrahedron, crossing, touching and disjoint segments. *)
Example C38_example :
  ~ area (0, 0) (4, 0) (0, 4) == 0 /\ intersects_point_triangle QOps (0, 0) (4, 0) (0, 4) (1, 3) = Some true /\
  intersects_point_triangle QOps (0, 0) (4, 0) (0, 4) (2, 3) = Some false /\
  ~ volume (0, 0, 0) (1, 0, 0) (0, 1, 0) (0, 0, 1) == 0 /\
  intersects_point_tet QOps (0, 0, 0) (1, 0, 0) (0, 1, 0) (0, 0, 1) (1 # 4, 1 # 4, 1 # 4) = true /\
  intersects_point_tet QOps (0, 0, 0) (1, 0, 0) (0, 1, 0) (0, 0, 1) (1, 1, 1) = false /\
  intersects_segment_segment QOps ((0, 0), (2, 2)) ((0, 2), (2, 0)) = true /\
  intersects_segment_segment QOps ((0, 0), (2, 2)) ((3, 3), (4, 4)) = false /\
  intersects_segment_segment QOps ((0, 0), (2, 2)) ((1, 1), (4, 4)) = true /\
  intersects_segment_box QOps ((-1, 0), (2, 3)) (0, 0) (2, 2) = true /\
  intersects_segment_box QOps ((-3, 0), (0, 3)) (0, 0) (2, 2) = false.
Proof. vm_compute. repeat split; discriminate. Qed.
Print Assumptions C38_triangle_barycentric.
Print Assumptions C38_point_triangle.
Print Assumptions C38_tet_barycentric.
Print Assumptions C38_point_tet.
Print Assumptions C38_segment_segment.
Print Assumptions C38_segment_box.
