(** C41: ellipsoid against segment and box, in exact arithmetic. *)
From Coq Require Import QArith Lqa Qfield.
From Verif Require Import Base GeomOps BoxModel ShapeModel ShapeSpec PropertiesShape PropertiesClosest.
Local Open Scope Q_scope.

(** The ellipsoid: the points with (p - c)^t R (p - c) <= 1, R symmetric and positive definite. *)
Definition form2 (r00 r01 r11 x y : Q) : Q := r00 * x * x + 2 * r01 * x * y + r11 * y * y.
Definition InEllipse (c : Q2) (r00 r01 r11 : Q) (p : Q2) : Prop := form2 r00 r01 r11 (p.1 - c.1) (p.2 - c.2) <= 1.
Definition mat2 (r00 r01 r11 : Q) : Q2 * Q2 := ((r00, r01), (r01, r11)).
Definition form3 (r00 r01 r02 r11 r12 r22 x y z : Q) : Q :=
  r00 * x * x + r11 * y * y + r22 * z * z + 2 * r01 * x * y + 2 * r02 * x * z + 2 * r12 * y * z.
Definition InEllipsoid (c : Q3) (r00 r01 r02 r11 r12 r22 : Q) (p : Q3) : Prop :=
  form3 r00 r01 r02 r11 r12 r22 (p.1.1 - c.1.1) (p.1.2 - c.1.2) (p.2 - c.2) <= 1.
Definition mat3 (r00 r01 r02 r11 r12 r22 : Q) : Q3 * Q3 * Q3 := ((r00, r01, r02), (r01, r11, r12), (r02, r12, r22)).
Definition PosDef2 (r00 r01 r11 : Q) : Prop := forall x y, ~ (x == 0 /\ y == 0) -> 0 < form2 r00 r01 r11 x y.
Definition PosDef3 (r00 r01 r02 r11 r12 r22 : Q) : Prop :=
  forall x y z, ~ (x == 0 /\ y == 0 /\ z == 0) -> 0 < form3 r00 r01 r02 r11 r12 r22 x y z.

(** ** The least value along a segment *)
Lemma two_2 : two QOps == 2.
Proof. reflexivity. Qed.
Lemma clamp_range x : 0 <= clamp QOps x 0 1 /\ clamp QOps x 0 1 <= 1.
Proof. unfold clamp. exact_ops. destruct (Qltb x 0) eqn:E1; [split; lra|]. destruct (Qltb 1 x) eqn:E2; rewrite ?Qltb_ge in *; split; lra. Qed.
Lemma clamp_least A B t : 0 < A -> 0 <= t -> t <= 1 ->
  A * clamp QOps (- B / A) 0 1 * clamp QOps (- B / A) 0 1 + 2 * B * clamp QOps (- B / A) 0 1 <= A * t * t + 2 * B * t.
Proof.
  intros HA T1 T2. assert (A * (- B / A) == - B) as E by (field; lra). set (u := - B / A) in *. clearbody u. assert (B == - (A * u)) as -> by lra.
  assert (forall v, A * v * v + 2 * - (A * u) * v == A * ((v - u) * (v - u)) - A * u * u) as K by (intros; ring). rewrite !K.
  assert ((clamp QOps u 0 1 - u) * (clamp QOps u 0 1 - u) <= (t - u) * (t - u)); [|nra].
  unfold clamp. exact_ops. destruct (Qltb u 0) eqn:E1; rewrite ?Qltb_lt, ?Qltb_ge in *; [nra|]. destruct (Qltb 1 u) eqn:E2; rewrite ?Qltb_lt, ?Qltb_ge in *; [nra|].
  assert ((u - u) * (u - u) == 0) as -> by ring. apply sq_nonneg.
Qed.
Lemma quadratic_ok A B C : 0 < A -> quadratic QOps A B C = true <-> exists t, 0 <= t /\ t <= 1 /\ A * t * t + 2 * B * t + C <= 1.
Proof.
  intros HA. unfold quadratic. exact_ops. rewrite Qle_bool_iff, two_2. split.
  - intros H. exists (clamp QOps (- B / A) 0 1). destruct (clamp_range (- B / A)). done.
  - intros (t&T1&T2&H). pose proof (clamp_least A B t HA T1 T2). lra.
Qed.

(** ** In the plane *)
Lemma ellipse_point c r00 r01 r11 p : ellipsoid_point2 QOps c (mat2 r00 r01 r11) p = true <-> InEllipse c r00 r01 r11 p.
Proof.
  destruct c as [cx cy], p as [px py]. unfold ellipsoid_point2, rmt2, mat2, sub2, InEllipse, form2. exact_ops. rewrite Qle_bool_iff.
  match goal with |- ?a <= 1 <-> ?b <= 1 => assert (a == b) as -> by ring end. done.
Qed.
Theorem C41_segment_2d : forall c r00 r01 r11 a b, PosDef2 r00 r01 r11 ->
  ellipsoid_segment2 QOps c (mat2 r00 r01 r11) a b = true <-> exists p, InSegment2 a b p /\ InEllipse c r00 r01 r11 p.
Proof.
  intros c r00 r01 r11 a b HP. unfold ellipsoid_segment2. destruct (equals2 QOps a b) eqn:E.
  - rewrite ellipse_point. unfold equals2 in E. exact_ops. rewrite andb_true_iff, !Qeq_bool_iff in E. destruct E as [E1 E2]. split.
    + intros H. exists a. split; [|done]. exists 0. unfold Eq2, at2. cbn [fst snd]. repeat split; lra.
    + intros (p&(t&T1&T2&[F1 F2])&H). unfold at2, InEllipse in *. cbn [fst snd] in *.
      assert (p.1 == a.1) as G1 by (rewrite F1, <- E1; ring). assert (p.2 == a.2) as G2 by (rewrite F2, <- E2; ring). unfold form2 in *. rewrite G1, G2 in H. done.
  - destruct a as [ax ay], b as [bx by_], c as [cx cy]. unfold equals2 in E. exact_ops.
    assert (0 < rmt2 QOps (bx - ax, by_ - ay) (mat2 r00 r01 r11) (bx - ax, by_ - ay)) as HA.
    { unfold rmt2, mat2. exact_ops. assert (0 < form2 r00 r01 r11 (bx - ax) (by_ - ay)) as H.
      { apply HP. intros [H1 H2]. apply not_true_iff_false in E. apply E. rewrite andb_true_iff, !Qeq_bool_iff. split; lra. }
      unfold form2 in H. match goal with |- 0 < ?e => match type of H with 0 < ?f => assert (e == f) as -> by ring end end. done. }
    unfold sub2 at 1 2 3 4 5 6. exact_ops. rewrite quadratic_ok by exact HA. clear HA. unfold rmt2, mat2, InEllipse, form2. exact_ops. split.
    + intros (t&T1&T2&H). exists ((1 - t) * ax + t * bx, (1 - t) * ay + t * by_). cbn [fst snd]. split; [exists t; unfold Eq2, at2; cbn [fst snd]; repeat split; lra|].
      match type of H with ?f <= 1 => match goal with |- ?e <= 1 => assert (e == f) as -> by ring end end. done.
    + intros (p&(t&T1&T2&[F1 F2])&H). exists t. split; [done|]. split; [done|]. unfold at2 in *. cbn [fst snd] in *. rewrite F1, F2 in H.
      match type of H with ?f <= 1 => match goal with |- ?e <= 1 => assert (e == f) as -> by ring end end. done.
Qed.
(** The whole box test, apart from the shapes that are circles, which are handed to the sphere test (C37). *)
Theorem C41_box_2d : forall c r00 r01 r11 mn mx, PosDef2 r00 r01 r11 -> mn.1 <= mx.1 -> mn.2 <= mx.2 ->
  ellipsoid_box2 QOps c (mat2 r00 r01 r11) mn mx = true <-> exists p, InBox2 mn mx p /\ InEllipse c r00 r01 r11 p.
Proof.
  intros c r00 r01 r11 mn mx HP Hx Hy. unfold ellipsoid_box2.
  assert (forall p, in_box2 QOps p mn mx = true <-> InBox2 mn mx p) as Hin.
  { intros p. unfold in_box2, InBox2. exact_ops. rewrite andb_true_iff, !negb_true_iff, !orb_false_iff, !Qltb_ge. tauto. }
  destruct (in_box2 QOps c mn mx) eqn:Ec; cbn [orb].
  { split; [intros _|done]. exists c. split; [by apply Hin|]. unfold InEllipse, form2.
    match goal with |- ?e <= 1 => assert (e == 0) as -> by ring end. lra. }
  rewrite !orb_true_iff, !(C41_segment_2d c r00 r01 r11) by done.
  assert (forall u v, InBox2 mn mx u -> InBox2 mn mx v -> forall p, InSegment2 u v p -> InBox2 mn mx p) as Hconv.
  { intros u v (U1&U2&U3&U4) (V1&V2&V3&V4) p (t&T1&T2&[E1 E2]). unfold InBox2. rewrite E1, E2. unfold at2. cbn [fst snd]. repeat split; nra. }
  assert (InBox2 mn mx mn) as C1 by (repeat split; lra). assert (InBox2 mn mx mx) as C2 by (repeat split; lra).
  assert (InBox2 mn mx (mn.1, mx.2)) as C3 by (unfold InBox2; cbn [fst snd]; repeat split; lra).
  assert (InBox2 mn mx (mx.1, mn.2)) as C4 by (unfold InBox2; cbn [fst snd]; repeat split; lra).
  split.
  - intros [[[(p&H1&H2)|(p&H1&H2)]|(p&H1&H2)]|(p&H1&H2)]; exists p; (split; [|done]); [apply (Hconv _ _ C1 C3)|apply (Hconv _ _ C1 C4)|apply (Hconv _ _ C2 C3)|apply (Hconv _ _ C2 C4)]; done.
  - intros (p&HB&HE). apply not_true_iff_false in Ec. rewrite Hin in Ec.
    destruct (box_wall mn mx c p Hx Hy Ec HB) as (r&Hr&HrB&Hw).
    assert (InEllipse c r00 r01 r11 r) as HrE.
    { destruct Hr as (s&S1&S2&[E3 E4]). unfold at2, InEllipse in *. cbn [fst snd] in *. unfold form2 in *. rewrite E3, E4.
      match type of HE with ?f <= 1 => match goal with |- ?e <= 1 => assert (e == (1 - s) * (1 - s) * f) as -> by ring; set (F := f) in * end end.
      assert (0 <= (1 - s) * (1 - s)) by nra. assert ((1 - s) * (1 - s) <= 1) by nra. nra. }
    destruct (wall_edge mn mx r HrB Hw) as [?|[?|[?|?]]]; [left; left; left|left; left; right|left; right|right]; by exists r.
Qed.

(** ** In space *)
Lemma ellipsoid_point c r00 r01 r02 r11 r12 r22 p :
  ellipsoid_point3 QOps c (mat3 r00 r01 r02 r11 r12 r22) p = true <-> InEllipsoid c r00 r01 r02 r11 r12 r22 p.
Proof.
  destruct c as [[cx cy] cz], p as [[px py] pz]. unfold ellipsoid_point3, rmt3, mat3, sub3, InEllipsoid, form3. exact_ops. rewrite Qle_bool_iff.
  match goal with |- ?a <= 1 <-> ?b <= 1 => assert (a == b) as -> by ring end. done.
Qed.
Lemma posdef_diff r00 r01 r02 r11 r12 r22 a b : PosDef3 r00 r01 r02 r11 r12 r22 -> equals3 QOps a b = false ->
  0 < rmt3 QOps (sub3 QOps b a) (mat3 r00 r01 r02 r11 r12 r22) (sub3 QOps b a).
Proof.
  destruct a as [[ax ay] az], b as [[bx by_] bz]. intros HP E. unfold equals3, rmt3, mat3, sub3 in *. exact_ops.
  assert (0 < form3 r00 r01 r02 r11 r12 r22 (bx - ax) (by_ - ay) (bz - az)) as H.
  { apply HP. intros (H1&H2&H3). apply not_true_iff_false in E. apply E. rewrite !andb_true_iff, !Qeq_bool_iff. split; [split|]; lra. }
  unfold form3 in H. match goal with |- 0 < ?e => match type of H with 0 < ?f => assert (e == f) as -> by ring end end. done.
Qed.
Lemma equals3_iff a b : equals3 QOps a b = true <-> Eq3 a b.
Proof. destruct a as [[ax ay] az], b as [[bx by_] bz]. unfold equals3, Eq3. exact_ops. rewrite !andb_true_iff, !Qeq_bool_iff. tauto. Qed.
Lemma InEllipsoid_eq c r00 r01 r02 r11 r12 r22 p q : Eq3 p q -> InEllipsoid c r00 r01 r02 r11 r12 r22 p -> InEllipsoid c r00 r01 r02 r11 r12 r22 q.
Proof. intros (E1&E2&E3). unfold InEllipsoid, form3. rewrite E1, E2, E3. done. Qed.
Theorem C41_segment_3d : forall c r00 r01 r02 r11 r12 r22 a b, PosDef3 r00 r01 r02 r11 r12 r22 ->
  ellipsoid_segment3 QOps c (mat3 r00 r01 r02 r11 r12 r22) a b = true <-> exists p, InSegment3 a b p /\ InEllipsoid c r00 r01 r02 r11 r12 r22 p.
Proof.
  intros c r00 r01 r02 r11 r12 r22 a b HP. unfold ellipsoid_segment3. destruct (equals3 QOps a b) eqn:E.
  - rewrite ellipsoid_point. apply equals3_iff in E. destruct E as (E1&E2&E3). split.
    + intros H. exists a. split; [|done]. exists 0. unfold Eq3, at3. cbn [fst snd]. repeat split; lra.
    + intros (p&(t&T1&T2&(F1&F2&F3))&H). unfold at3 in *. cbn [fst snd] in *. eapply InEllipsoid_eq; [|exact H].
      split; [rewrite F1, <- E1; ring|]. split; [rewrite F2, <- E2; ring|rewrite F3, <- E3; ring].
  - rewrite quadratic_ok by (by apply posdef_diff). destruct a as [[ax ay] az], b as [[bx by_] bz], c as [[cx cy] cz].
    unfold rmt3, mat3, sub3, InEllipsoid, form3. exact_ops. split.
    + intros (t&T1&T2&H). exists ((1 - t) * ax + t * bx, (1 - t) * ay + t * by_, (1 - t) * az + t * bz). cbn [fst snd]. split; [exists t; unfold Eq3, at3; cbn [fst snd]; repeat split; lra|].
      match type of H with ?f <= 1 => match goal with |- ?e <= 1 => assert (e == f) as -> by ring end end. done.
    + intros (p&(t&T1&T2&(F1&F2&F3))&H). exists t. split; [done|]. split; [done|]. unfold at3 in *. cbn [fst snd] in *. rewrite F1, F2, F3 in H.
      match type of H with ?f <= 1 => match goal with |- ?e <= 1 => assert (e == f) as -> by ring end end. done.
Qed.

(** A face: the points a + s (b - a) + t (c - a). *)
Definition OnFace (a b c p : Q3) : Prop := exists s t, 0 <= s /\ s <= 1 /\ 0 <= t /\ t <= 1 /\
  Eq3 p (a.1.1 + s * (b.1.1 - a.1.1) + t * (c.1.1 - a.1.1), a.1.2 + s * (b.1.2 - a.1.2) + t * (c.1.2 - a.1.2), a.2 + s * (b.2 - a.2) + t * (c.2 - a.2)).
Lemma face_sound c0 r00 r01 r02 r11 r12 r22 a b c : PosDef3 r00 r01 r02 r11 r12 r22 ->
  ellipsoid_face QOps c0 (mat3 r00 r01 r02 r11 r12 r22) a b c = true -> exists p, OnFace a b c p /\ InEllipsoid c0 r00 r01 r02 r11 r12 r22 p.
Proof.
  intros HP. unfold ellipsoid_face. destruct (equals3 QOps a b) eqn:Eab.
  { rewrite C41_segment_3d by done. intros (p&(t&T1&T2&(F1&F2&F3))&H). exists p. split; [|done]. exists 0, t. unfold at3, Eq3 in *. cbn [fst snd] in *. repeat split; lra. }
  destruct (equals3 QOps a c) eqn:Eac.
  { rewrite C41_segment_3d by done. intros (p&(t&T1&T2&(F1&F2&F3))&H). exists p. split; [|done]. exists t, 0. unfold at3, Eq3 in *. cbn [fst snd] in *. repeat split; lra. }
  destruct (equals3 QOps b c) eqn:Ebc.
  { rewrite C41_segment_3d by done. intros (p&(t&T1&T2&(F1&F2&F3))&H). exists p. split; [|done]. exists (1 - t), 0. unfold at3, Eq3 in *. cbn [fst snd] in *. repeat split; lra. }
  cbv zeta. exact_ops. rewrite Qle_bool_iff, two_2. match goal with |- context [clamp QOps ?x 0 1 * clamp QOps ?x 0 1 + _] => idtac | _ => idtac end.
  intros H. match type of H with context [?A * clamp QOps ?t 0 1 * clamp QOps ?t 0 1 + 2 * ?B * clamp QOps ?t 0 1 * clamp QOps ?s 0 1] =>
    pose proof (clamp_range t) as [Ht1 Ht2]; pose proof (clamp_range s) as [Hs1 Hs2]; set (u := clamp QOps t 0 1) in *; set (v := clamp QOps s 0 1) in * end. clearbody u v.
  exists (a.1.1 + v * (b.1.1 - a.1.1) + u * (c.1.1 - a.1.1), a.1.2 + v * (b.1.2 - a.1.2) + u * (c.1.2 - a.1.2), a.2 + v * (b.2 - a.2) + u * (c.2 - a.2)).
  split; [exists v, u; repeat split; try lra|]. destruct a as [[ax ay] az], b as [[bx by_] bz], c as [[cx cy] cz], c0 as [[dx dy] dz].
  unfold rmt3, mat3, sub3, InEllipsoid, form3 in *. exact_ops.
  match type of H with ?f <= 1 => match goal with |- ?e <= 1 => assert (e == f) as -> by ring end end. done.
Qed.
Theorem C41_box_3d_sound_partial : forall c r00 r01 r02 r11 r12 r22 mn mx, PosDef3 r00 r01 r02 r11 r12 r22 ->
  mn.1.1 <= mx.1.1 -> mn.1.2 <= mx.1.2 -> mn.2 <= mx.2 ->
  ellipsoid_box3 QOps c (mat3 r00 r01 r02 r11 r12 r22) mn mx = true -> exists p, InBox3 mn mx p /\ InEllipsoid c r00 r01 r02 r11 r12 r22 p.
Proof.
  intros [[cx cy] cz] r00 r01 r02 r11 r12 r22 [[nx ny] nz] [[xx xy] xz] HP H1 H2 H3. unfold ellipsoid_box3. rewrite !orb_true_iff. exact_ops.
  intros [HC|HF].
  - exists (cx, cy, cz). unfold in_box3, intersects_pb in HC. cbn in HC. rewrite !andb_true_iff, !negb_true_iff, !orb_false_iff, !Qltb_ge in HC.
    split; [unfold InBox3; cbn [fst snd]; tauto|]. unfold InEllipsoid, form3. cbn [fst snd]. match goal with |- ?e <= 1 => assert (e == 0) as -> by ring end. lra.
  - destruct HF as [[[[[HF|HF]|HF]|HF]|HF]|HF]; apply face_sound in HF; try done; destruct HF as (p&(s&t&S1&S2&T1&T2&(E1&E2&E3))&HE); exists p; (split; [|done]);
      cbn [fst snd] in *; unfold InBox3; cbn [fst snd]; rewrite E1, E2, E3; repeat split; nra.
Qed.

(** Completeness fails: clamping the two parameters of a face separately is not the closest point of the face. *)
Theorem C41_box_3d_refuted : exists c r00 r01 r02 r11 r12 r22 mn mx p,
  (forall x y z, form3 r00 r01 r02 r11 r12 r22 x y z == (1 # 14) * (14 * x + 16 * y + 11 * z) * (14 * x + 16 * y + 11 * z) +
     (1 # 140) * (10 * y + 6 * z) * (10 * y + 6 * z) + (1 # 10) * z * z) /\
  PosDef3 r00 r01 r02 r11 r12 r22 /\ mn.1.1 < mx.1.1 /\ mn.1.2 < mx.1.2 /\ mn.2 < mx.2 /\
  InBox3 mn mx p /\ InEllipsoid c r00 r01 r02 r11 r12 r22 p /\ is_sphere3 QOps (mat3 r00 r01 r02 r11 r12 r22) = false /\
  ellipsoid_box3 QOps c (mat3 r00 r01 r02 r11 r12 r22) mn mx = false.
Proof.
  exists (- (3 # 2), 0, -2), 14, 16, 11, 19, 13, 9, (-1, -1, -1), (1, 1, 1), (-1, -1, -1).
  assert (forall x y z, form3 14 16 11 19 13 9 x y z == (1 # 14) * (14 * x + 16 * y + 11 * z) * (14 * x + 16 * y + 11 * z) +
     (1 # 140) * (10 * y + 6 * z) * (10 * y + 6 * z) + (1 # 10) * z * z) as HF by (intros; unfold form3; field).
  split; [exact HF|]. split.
  { intros x y z Hn. rewrite HF. set (u := 14 * x + 16 * y + 11 * z). set (v := 10 * y + 6 * z). pose proof (sq_nonneg u). pose proof (sq_nonneg v). pose proof (sq_nonneg z).
    destruct (Qeq_dec z 0) as [Ez|Ez]; [|pose proof (sq_pos z Ez); lra].
    destruct (Qeq_dec v 0) as [Ev|Ev]; [|pose proof (sq_pos v Ev); lra].
    destruct (Qeq_dec u 0) as [Eu|Eu]; [|pose proof (sq_pos u Eu); lra].
    exfalso. apply Hn. unfold u, v in *. split; [lra|]. split; lra. }
  split; [done|]. split; [done|]. split; [done|]. split; [vm_compute; repeat split; discriminate|]. split; [vm_compute; discriminate|]. split; vm_compute; done.
Qed.

(** The test for the special case: it holds for the balls and for nothing else. *)
Theorem C41_is_sphere : forall r00 r01 r02 r11 r12 r22,
  is_sphere3 QOps (mat3 r00 r01 r02 r11 r12 r22) = true <->
  exists k, forall x y z, form3 r00 r01 r02 r11 r12 r22 x y z == k * (x * x + y * y + z * z).
Proof.
  intros. unfold is_sphere3, mat3. exact_ops. rewrite !andb_true_iff, !Qeq_bool_iff. split.
  - intros [[[[E1 E2] E3] E4] E5]. exists r00. intros x y z. unfold form3. rewrite <- E1, E2, <- E3, E4, E5. ring.
  - intros [k H]. pose proof (H 1 0 0) as H1. pose proof (H 0 1 0) as H2. pose proof (H 0 0 1) as H3.
    pose proof (H 1 1 0) as H4. pose proof (H 1 0 1) as H5. pose proof (H 0 1 1) as H6. unfold form3 in *.
    repeat split; lra.
Qed.

(** For ellipsoids aligned with the axes the test is exact. *)
Lemma face_complete c0 r0 r1 r2 a b c p : PosDef3 r0 0 0 r1 0 r2 -> rmt3 QOps (sub3 QOps b a) (mat3 r0 0 0 r1 0 r2) (sub3 QOps c a) == 0 ->
  OnFace a b c p -> InEllipsoid c0 r0 0 0 r1 0 r2 p -> ellipsoid_face QOps c0 (mat3 r0 0 0 r1 0 r2) a b c = true.
Proof.
  intros HP HA12 HO HI. unfold ellipsoid_face. destruct (equals3 QOps a b) eqn:Eab.
  { apply C41_segment_3d; [done|]. exists p. split; [|done]. destruct HO as (s&t&S1&S2&T1&T2&(E1&E2&E3)). apply equals3_iff in Eab. destruct Eab as (A1&A2&A3).
    exists t. unfold Eq3, at3. cbn [fst snd] in *. rewrite E1, E2, E3, <- A1, <- A2, <- A3. repeat split; try done; ring. }
  destruct (equals3 QOps a c) eqn:Eac.
  { apply C41_segment_3d; [done|]. exists p. split; [|done]. destruct HO as (s&t&S1&S2&T1&T2&(E1&E2&E3)). apply equals3_iff in Eac. destruct Eac as (A1&A2&A3).
    exists s. unfold Eq3, at3. cbn [fst snd] in *. rewrite E1, E2, E3, <- A1, <- A2, <- A3. repeat split; try done; ring. }
  pose proof (posdef_diff _ _ _ _ _ _ a b HP Eab) as Hb. pose proof (posdef_diff _ _ _ _ _ _ a c HP Eac) as Hc.
  destruct (equals3 QOps b c) eqn:Ebc.
  { exfalso. apply equals3_iff in Ebc. destruct Ebc as (A1&A2&A3). destruct a as [[ax ay] az], b as [[bx by_] bz], c as [[cx cy] cz].
    unfold rmt3, mat3, sub3 in *. exact_ops. rewrite A1, A2, A3 in HA12. lra. }
  cbv zeta. exact_ops. rewrite Qle_bool_iff, two_2. destruct HO as (s&t&S1&S2&T1&T2&(E1&E2&E3)).
  set (A11 := rmt3 QOps (sub3 QOps c a) _ (sub3 QOps c a)) in *. set (A22 := rmt3 QOps (sub3 QOps b a) _ (sub3 QOps b a)) in *. set (A12 := rmt3 QOps (sub3 QOps b a) _ (sub3 QOps c a)) in *.
  set (B1 := rmt3 QOps (sub3 QOps a c0) _ (sub3 QOps c a)). set (B2 := rmt3 QOps (sub3 QOps a c0) _ (sub3 QOps b a)). set (C := rmt3 QOps (sub3 QOps a c0) _ (sub3 QOps a c0)).
  assert (A11 * t * t + 2 * A12 * t * s + A22 * s * s + 2 * B1 * t + 2 * B2 * s + C <= 1) as HV.
  { unfold InEllipsoid, form3 in HI. rewrite E1, E2, E3 in HI. destruct a as [[ax ay] az], b as [[bx by_] bz], c as [[cx cy] cz], c0 as [[dx dy] dz].
    unfold A11, A12, A22, B1, B2, C, rmt3, mat3, sub3. exact_ops. match type of HI with ?f <= 1 => match goal with |- ?e <= 1 => assert (e == f) as -> by ring end end. done. }
  clearbody A11 A12 A22 B1 B2 C. clear -Hb Hc HA12 HV S1 S2 T1 T2.
  assert (forall x y, x == y -> clamp QOps x 0 1 == clamp QOps y 0 1) as HCl.
  { intros x y E. unfold clamp. exact_ops. destruct (Qltb x 0) eqn:E1, (Qltb y 0) eqn:E2, (Qltb 1 x) eqn:E3, (Qltb 1 y) eqn:E4; rewrite ?Qltb_lt, ?Qltb_ge in *; lra. }
  assert ((A12 * B2 - A22 * B1) / (A11 * A22 - A12 * A12) == - B1 / A11) as Et by (rewrite HA12; field; split; lra).
  assert ((A12 * B1 - A11 * B2) / (A11 * A22 - A12 * A12) == - B2 / A22) as Es by (rewrite HA12; field; split; lra).
  rewrite (HCl _ _ Et), (HCl _ _ Es). rewrite HA12 in *. pose proof (clamp_least A11 B1 t Hc T1 T2). pose proof (clamp_least A22 B2 s Hb S1 S2). lra.
Qed.
Lemma ratio01 lo hi x : lo <= x -> x <= hi -> exists t, 0 <= t /\ t <= 1 /\ x == lo + t * (hi - lo).
Proof.
  intros H1 H2. destruct (Qeq_dec lo hi) as [E|E]; [exists 0; repeat split; lra|].
  exists ((x - lo) / (hi - lo)). assert (0 < hi - lo) by (destruct (Qlt_le_dec lo hi); [lra|exfalso; apply E; lra]).
  split; [apply Qle_shift_div_l; lra|]. split; [apply Qle_shift_div_r; lra|]. field. lra.
Qed.
(** The value of a coordinate closest to the centre. *)
Lemma nearest_coordinate lo hi c : lo <= hi -> exists x, lo <= x /\ x <= hi /\ (forall y, lo <= y -> y <= hi -> (x - c) * (x - c) <= (y - c) * (y - c)) /\
  ((lo <= c /\ c <= hi) \/ x == lo \/ x == hi).
Proof.
  intros H. destruct (Qlt_le_dec c lo); [exists lo|destruct (Qlt_le_dec hi c); [exists hi|exists c]].
  - split; [lra|]. split; [lra|]. split; [intros; nra|right; left; reflexivity].
  - split; [lra|]. split; [lra|]. split; [intros; nra|right; right; reflexivity].
  - split; [lra|]. split; [lra|]. split; [|left; lra]. intros. assert ((c - c) * (c - c) == 0) as -> by ring. apply sq_nonneg.
Qed.
Theorem C41_box_3d_aligned : forall c r0 r1 r2 mn mx, 0 < r0 -> 0 < r1 -> 0 < r2 ->
  mn.1.1 <= mx.1.1 -> mn.1.2 <= mx.1.2 -> mn.2 <= mx.2 ->
  ellipsoid_box3 QOps c (mat3 r0 0 0 r1 0 r2) mn mx = true <-> exists p, InBox3 mn mx p /\ InEllipsoid c r0 0 0 r1 0 r2 p.
Proof.
  intros c r0 r1 r2 mn mx P0 P1 P2 H1 H2 H3.
  assert (PosDef3 r0 0 0 r1 0 r2) as HP.
  { intros x y z Hn. unfold form3. assert (forall r u, 0 < r -> 0 <= r * u * u) as HN by (intros r u Hr; pose proof (sq_nonneg u); nra).
    pose proof (HN r0 x P0). pose proof (HN r1 y P1). pose proof (HN r2 z P2).
    destruct (Qeq_dec x 0) as [Ex|Ex]; [|assert (0 < r0 * x * x) by (pose proof (sq_pos x Ex); nra); lra].
    destruct (Qeq_dec y 0) as [Ey|Ey]; [|assert (0 < r1 * y * y) by (pose proof (sq_pos y Ey); nra); lra].
    destruct (Qeq_dec z 0) as [Ez|Ez]; [|assert (0 < r2 * z * z) by (pose proof (sq_pos z Ez); nra); lra]. tauto. }
  split; [by apply C41_box_3d_sound_partial|].
  destruct c as [[cx cy] cz], mn as [[nx ny] nz], mx as [[xx xy] xz]. cbn [fst snd] in *. intros ([[px py] pz]&(B1&B2&B3&B4&B5&B6)&HE). cbn [fst snd] in *.
  unfold ellipsoid_box3. exact_ops. destruct (in_box3 QOps (cx, cy, cz) (nx, ny, nz) (xx, xy, xz)) eqn:EC; [done|cbn [orb]].
  destruct (nearest_coordinate nx xx cx H1) as (x&X1&X2&X3&X4). destruct (nearest_coordinate ny xy cy H2) as (y&Y1&Y2&Y3&Y4). destruct (nearest_coordinate nz xz cz H3) as (z&Z1&Z2&Z3&Z4).
  assert (InEllipsoid (cx, cy, cz) r0 0 0 r1 0 r2 (x, y, z)) as HV.
  { specialize (X3 px B1 B2). specialize (Y3 py B3 B4). specialize (Z3 pz B5 B6). unfold InEllipsoid, form3 in *. cbn [fst snd] in *. nra. }
  assert (x == nx \/ x == xx \/ y == ny \/ y == xy \/ z == nz \/ z == xz) as HW.
  { destruct X4 as [X4|[?|?]]; [|tauto..]. destruct Y4 as [Y4|[?|?]]; [|tauto..]. destruct Z4 as [Z4|[?|?]]; [|tauto..].
    exfalso. apply not_true_iff_false in EC. apply EC. unfold in_box3, intersects_pb. cbn. rewrite !andb_true_iff, !negb_true_iff, !orb_false_iff, !Qltb_ge. tauto. }
  destruct (ratio01 _ _ _ X1 X2) as (tx&TX1&TX2&TX3). destruct (ratio01 _ _ _ Y1 Y2) as (ty&TY1&TY2&TY3). destruct (ratio01 _ _ _ Z1 Z2) as (tz&TZ1&TZ2&TZ3).
  rewrite !orb_true_iff. destruct HW as [W|[W|[W|[W|[W|W]]]]].
  - do 3 left. right. apply (face_complete _ _ _ _ _ _ _ (x, y, z)); [done|unfold rmt3, mat3, sub3; exact_ops; ring| |done]. exists ty, tz. unfold Eq3. cbn [fst snd]. repeat split; lra.
  - right. apply (face_complete _ _ _ _ _ _ _ (x, y, z)); [done|unfold rmt3, mat3, sub3; exact_ops; ring| |done]. exists (1 - ty), (1 - tz). unfold Eq3. cbn [fst snd]. repeat split; lra.
  - do 4 left. right. apply (face_complete _ _ _ _ _ _ _ (x, y, z)); [done|unfold rmt3, mat3, sub3; exact_ops; ring| |done]. exists tx, tz. unfold Eq3. cbn [fst snd]. repeat split; lra.
  - left. right. apply (face_complete _ _ _ _ _ _ _ (x, y, z)); [done|unfold rmt3, mat3, sub3; exact_ops; ring| |done]. exists (1 - tx), (1 - tz). unfold Eq3. cbn [fst snd]. repeat split; lra.
  - do 5 left. apply (face_complete _ _ _ _ _ _ _ (x, y, z)); [done|unfold rmt3, mat3, sub3; exact_ops; ring| |done]. exists tx, ty. unfold Eq3. cbn [fst snd]. repeat split; lra.
  - do 2 left. right. apply (face_complete _ _ _ _ _ _ _ (x, y, z)); [done|unfold rmt3, mat3, sub3; exact_ops; ring| |done]. exists (1 - tx), (1 - ty). unfold Eq3. cbn [fst snd]. repeat split; lra.
Qed.
Example C41_example : ellipsoid_box2 QOps (0, 0) (mat2 1 (1 # 2) 2) (1 # 2, 0) (2, 2) = true /\ ellipsoid_box2 QOps (0, 0) (mat2 1 (1 # 2) 2) (1, 1) (2, 2) = false /\
  ellipsoid_box3 QOps (0, 0, 0) (mat3 1 0 0 2 0 3) (1 # 2, -1, -1) (2, 2, 1) = true /\ PosDef2 1 (1 # 2) 2.
Proof.
  split; [vm_compute; done|]. split; [vm_compute; done|]. split; [vm_compute; done|]. intros x y Hn. unfold form2.
  assert (1 * x * x + 2 * (1 # 2) * x * y + 2 * y * y == (x + (1 # 2) * y) * (x + (1 # 2) * y) + (7 # 4) * (y * y)) as -> by ring.
  pose proof (sq_nonneg (x + (1 # 2) * y)). pose proof (sq_nonneg y).
  destruct (Qeq_dec y 0) as [Ey|Ey]; [|pose proof (sq_pos y Ey); lra]. destruct (Qeq_dec x 0) as [Ex|Ex]; [tauto|].
  assert (0 < (x + (1 # 2) * y) * (x + (1 # 2) * y)) by (apply sq_pos; lra). lra.
Qed.
Print Assumptions C41_segment_2d.
Print Assumptions C41_box_2d.
Print Assumptions C41_segment_3d.
Print Assumptions C41_box_3d_sound_partial.
Print Assumptions C41_box_3d_refuted.
Print Assumptions C41_box_3d_aligned.
Print Assumptions C41_is_sphere.
