(** C42: closest points, in exact arithmetic. *)
From Coq Require Import QArith Lqa Qfield.
From Verif Require Import Base GeomOps BoxModel BoxSpec ShapeModel ShapeSpec PropertiesBox PropertiesShape.
Local Open Scope Q_scope.

(** The set [S] has no point closer to [p] than [q], a point of [S]. *)
Definition ClosestOf (S : Q3 -> Prop) (p q : Q3) : Prop := S q /\ forall x, S x -> sqdist3 p q <= sqdist3 p x.
Definition Noncollinear (a b c : Q3) : Prop := ~ (
  (b.1.2 - a.1.2) * (c.2 - a.2) - (b.2 - a.2) * (c.1.2 - a.1.2) == 0 /\
  (b.2 - a.2) * (c.1.1 - a.1.1) - (b.1.1 - a.1.1) * (c.2 - a.2) == 0 /\
  (b.1.1 - a.1.1) * (c.1.2 - a.1.2) - (b.1.2 - a.1.2) * (c.1.1 - a.1.1) == 0).

Lemma sq_pos x : ~ x == 0 -> 0 < x * x.
Proof. intros H. destruct (Qlt_le_dec x 0); [nra|]. destruct (Qle_lt_or_eq 0 x) as [?|?]; [done|nra|exfalso; apply H; by symmetry]. Qed.
Lemma sq_nonneg x : 0 <= x * x.
Proof. nra. Qed.

(** ** Triangle: everything in terms of e = ab.ab, f = ab.ac, g = ac.ac, d1 = ab.ap, d2 = ac.ap *)
Section Zones.
Variables e f g d1 d2 : Q.
Definition Z1 := d1 <= 0 /\ d2 <= 0.
Definition Z2 := 0 <= d1 - e /\ d2 - f <= d1 - e.
Definition Z3 := 0 <= d2 - g /\ d1 - f <= d2 - g.
Definition Vc := e * d2 - f * d1.
Definition Vb := g * d1 - f * d2.
Definition Va := e * g - f * f - Vb - Vc.
Definition Z5 := Vc <= 0 /\ 0 <= d1 /\ d1 - e <= 0.
Definition Z4 := Vb <= 0 /\ 0 <= d2 /\ d2 - g <= 0.
Definition Z6 := Va <= 0 /\ 0 <= (d2 - f) - (d1 - e) /\ 0 <= (d1 - f) - (d2 - g).
End Zones.

Lemma beyond_a e f g d1 d2 : 0 < e -> 0 < g -> 0 < e * g - f * f -> ~ Z1 d1 d2 -> ~ Z3 f g d1 d2 -> ~ Z4 f g d1 d2 -> d1 < 0 -> 0 < Vc e f d1 d2.
Proof.
  unfold Z1, Z3, Z4, Vb, Vc. intros He Hg HD H1 H3 H4 Hd1. destruct (Qlt_le_dec 0 (e * d2 - f * d1)) as [|Hc]; [done|exfalso].
  destruct (Qlt_le_dec 0 d2) as [Hd2|]; [|apply H1; lra].
  assert (f < 0) as Hf by (destruct (Qlt_le_dec f 0); [done|nra]).
  destruct (Qlt_le_dec 0 (g * d1 - f * d2)) as [Hb|Hb].
  - (* f^2 d2 |d1| > e g d2 |d1| *)
    assert (e * d2 <= f * d1) as K1 by lra. assert (g * (- d1) < (- f) * d2) as K2 by lra.
    assert (e * d2 * (g * (- d1)) <= f * d1 * (g * (- d1))) as L1 by (apply Qmult_le_compat_r; [done|nra]).
    assert (0 < f * d1) as K3 by nra. assert (f * d1 * (g * (- d1)) < f * d1 * ((- f) * d2)) as L2 by (apply Qmult_lt_l; done).
    assert (0 < (- d1) * d2) as K4 by nra. assert (0 < (e * g - f * f) * ((- d1) * d2)) by nra. lra.
  - destruct (Qlt_le_dec 0 (d2 - g)) as [H6|H6]; [|apply H4; lra].
    destruct (Qlt_le_dec (d2 - g) (d1 - f)) as [H5|H5]; [|apply H3; lra].
    assert (- d1 < - f) as K1 by lra. assert (f * d1 < f * f) as K2 by nra. assert (e * g < e * d2) as K3 by nra. lra.
Qed.
Lemma Vc_pos e f g d1 d2 : 0 < e -> 0 < g -> 0 < e + g - 2 * f -> 0 < e * g - f * f ->
  ~ Z1 d1 d2 -> ~ Z2 e f d1 d2 -> ~ Z3 f g d1 d2 -> ~ Z5 e f d1 d2 -> ~ Z4 f g d1 d2 -> ~ Z6 e f g d1 d2 -> 0 < Vc e f d1 d2.
Proof.
  intros He Hg Hh HD H1 H2 H3 H5 H4 H6. destruct (Qlt_le_dec d1 0) as [L|L]; [by apply (beyond_a e f g)|].
  destruct (Qlt_le_dec 0 (d1 - e)) as [M|M].
  - (* the same from b *)
    pose proof (beyond_a e (e - f) (e + g - 2 * f) (e - d1) (d2 - f - (d1 - e))) as H. unfold Vc in *.
    assert (e * (d2 - f - (d1 - e)) - (e - f) * (e - d1) == e * d2 - f * d1) as <- by ring.
    apply H; [done|done| | | | |lra].
    + lra.
    + unfold Z1, Z2 in *. intros [? ?]. apply H2. split; lra.
    + unfold Z3 in *. intros [? ?]. apply H3. split; lra.
    + unfold Z4, Z6, Va, Vb, Vc in *. intros (?&?&?). apply H6. split; [lra|]. split; lra.
  - destruct (Qlt_le_dec 0 (Vc e f d1 d2)) as [|N]; [done|]. exfalso. apply H5. by repeat split.
Qed.

Section Triangle.
Variables e f g d1 d2 : Q.
Hypothesis He : 0 < e.
Hypothesis Hg : 0 < g.
Hypothesis Hh : 0 < e + g - 2 * f.
Hypothesis HD : 0 < e * g - f * f.
Hypothesis H1 : ~ Z1 d1 d2.
Hypothesis H2 : ~ Z2 e f d1 d2.
Hypothesis H3 : ~ Z3 f g d1 d2.
Hypothesis H5 : ~ Z5 e f d1 d2.
Hypothesis H4 : ~ Z4 f g d1 d2.
Hypothesis H6 : ~ Z6 e f g d1 d2.
Lemma interior_c : 0 < Vc e f d1 d2.
Proof. by apply (Vc_pos e f g). Qed.
Lemma interior_b : 0 < Vb f g d1 d2.
Proof.
  pose proof (Vc_pos g f e d2 d1 Hg He) as H. unfold Vb, Vc in *. apply H; [lra|lra|..].
  - unfold Z1 in *. tauto.
  - unfold Z2, Z3 in *. tauto.
  - unfold Z2, Z3 in *. tauto.
  - unfold Z4, Z5, Vb, Vc in *. tauto.
  - unfold Z4, Z5, Vb, Vc in *. tauto.
  - unfold Z6, Va, Vb, Vc in *. intros (?&?&?). apply H6. split; [lra|]. split; lra.
Qed.
Lemma interior_a : 0 < Va e f g d1 d2.
Proof.
  pose proof (Vc_pos (e + g - 2 * f) (e - f) e (d2 - f - (d1 - e)) (e - d1) Hh He) as H.
  assert (Vc (e + g - 2 * f) (e - f) (d2 - f - (d1 - e)) (e - d1) == Va e f g d1 d2) as <- by (unfold Va, Vb, Vc; ring). apply H.
  - lra.
  - lra.
  - unfold Z1, Z2 in *. intros [? ?]. apply H2. split; lra.
  - unfold Z2, Z3 in *. intros [? ?]. apply H3. split; lra.
  - unfold Z1, Z3 in *. intros [? ?]. apply H1. split; lra.
  - unfold Z5, Z6, Va, Vb, Vc in *. intros (?&?&?). apply H6. split; [lra|]. split; lra.
  - unfold Z4, Z5, Vb, Vc in *. intros (?&?&?). apply H5. split; [lra|]. split; lra.
  - unfold Z6, Z4, Va, Vb, Vc in *. intros (?&?&?). apply H4. split; [lra|]. split; lra.
Qed.
End Triangle.

(** Variational criterion in the coordinates (v, w) of the triangle. *)
Definition Good (e f g d1 d2 v w : Q) : Prop := 0 <= v /\ 0 <= w /\ v + w <= 1 /\
  forall s t, 0 <= s -> 0 <= t -> s + t <= 1 -> (s - v) * (d1 - v * e - w * f) + (t - w) * (d2 - v * f - w * g) <= 0.
Definition weights (e f g d1 d2 : Q) : Q * Q :=
  let d3 := d1 - e in let d4 := d2 - f in let d5 := d1 - f in let d6 := d2 - g in
  let vc := d1 * d4 - d3 * d2 in let vb := d5 * d2 - d1 * d6 in let va := d3 * d6 - d5 * d4 in
  if Qle_bool d1 0 && Qle_bool d2 0 then (0, 0) else
  if Qle_bool 0 d3 && Qle_bool d4 d3 then (1, 0) else
  if Qle_bool 0 d6 && Qle_bool d5 d6 then (0, 1) else
  if Qle_bool vc 0 && Qle_bool 0 d1 && Qle_bool d3 0 then (d1 / (d1 - d3), 0) else
  if Qle_bool vb 0 && Qle_bool 0 d2 && Qle_bool d6 0 then (0, d2 / (d2 - d6)) else
  if Qle_bool va 0 && Qle_bool 0 (d4 - d3) && Qle_bool 0 (d5 - d6) then
    (1 - (d4 - d3) / ((d4 - d3) + (d5 - d6)), (d4 - d3) / ((d4 - d3) + (d5 - d6))) else
  (vb * (1 / (va + vb + vc)), vc * (1 / (va + vb + vc))).
Lemma ratio_range x y : 0 < y -> 0 <= x -> x <= y -> 0 <= x / y /\ x / y <= 1.
Proof. intros. split; [apply Qle_shift_div_l|apply Qle_shift_div_r]; lra. Qed.
Lemma weights_good e f g d1 d2 : 0 < e -> 0 < g -> 0 < e + g - 2 * f -> 0 < e * g - f * f ->
  Good e f g d1 d2 (weights e f g d1 d2).1 (weights e f g d1 d2).2.
Proof.
  intros He Hg Hh HD. unfold weights. cbv zeta.
  assert (d1 * (d2 - f) - (d1 - e) * d2 == Vc e f d1 d2) as Ec by (unfold Vc; ring).
  assert ((d1 - f) * d2 - d1 * (d2 - g) == Vb f g d1 d2) as Eb by (unfold Vb; ring).
  assert ((d1 - e) * (d2 - g) - (d1 - f) * (d2 - f) == Va e f g d1 d2) as Ea by (unfold Va, Vb, Vc; ring).
  destruct (Qle_bool d1 0 && Qle_bool d2 0) eqn:T1.
  { apply andb_true_iff in T1 as [A B]. rewrite Qle_bool_iff in A, B. cbn [fst snd]. repeat split; try lra. intros s t Hs Ht Hst. nra. }
  destruct (Qle_bool 0 (d1 - e) && Qle_bool (d2 - f) (d1 - e)) eqn:T2.
  { apply andb_true_iff in T2 as [A B]. rewrite Qle_bool_iff in A, B. cbn [fst snd]. repeat split; try lra. intros s t Hs Ht Hst. nra. }
  destruct (Qle_bool 0 (d2 - g) && Qle_bool (d1 - f) (d2 - g)) eqn:T3.
  { apply andb_true_iff in T3 as [A B]. rewrite Qle_bool_iff in A, B. cbn [fst snd]. repeat split; try lra. intros s t Hs Ht Hst. nra. }
  destruct (Qle_bool (d1 * (d2 - f) - (d1 - e) * d2) 0 && Qle_bool 0 d1 && Qle_bool (d1 - e) 0) eqn:T5.
  { apply andb_true_iff in T5 as [A B]. apply andb_true_iff in A as [A C]. rewrite Qle_bool_iff in A, B, C. cbn [fst snd].
    assert (d1 / (d1 - (d1 - e)) == d1 / e) as Ev by (apply Qdiv_comp; [reflexivity|ring]). destruct (ratio_range d1 e) as [R1 R2]; [lra..|].
    unfold Good. rewrite !Ev. repeat split; try lra. intros s t Hs Ht Hst. rewrite ?Ev. 
    assert (d1 - d1 / e * e - 0 * f == 0) as -> by (field; lra). assert (d2 - d1 / e * f - 0 * g == (d1 * (d2 - f) - (d1 - e) * d2) / e) as -> by (field; lra).
    assert ((d1 * (d2 - f) - (d1 - e) * d2) / e <= 0) by (apply Qle_shift_div_r; lra). nra. }
  destruct (Qle_bool ((d1 - f) * d2 - d1 * (d2 - g)) 0 && Qle_bool 0 d2 && Qle_bool (d2 - g) 0) eqn:T4.
  { apply andb_true_iff in T4 as [A B]. apply andb_true_iff in A as [A C]. rewrite Qle_bool_iff in A, B, C. cbn [fst snd].
    assert (d2 / (d2 - (d2 - g)) == d2 / g) as Ev by (apply Qdiv_comp; [reflexivity|ring]). destruct (ratio_range d2 g) as [R1 R2]; [lra..|].
    unfold Good. rewrite !Ev. repeat split; try lra. intros s t Hs Ht Hst. rewrite ?Ev. 
    assert (d2 - 0 * f - d2 / g * g == 0) as -> by (field; lra). assert (d1 - 0 * e - d2 / g * f == ((d1 - f) * d2 - d1 * (d2 - g)) / g) as -> by (field; lra).
    assert (((d1 - f) * d2 - d1 * (d2 - g)) / g <= 0) by (apply Qle_shift_div_r; lra). nra. }
  destruct (Qle_bool ((d1 - e) * (d2 - g) - (d1 - f) * (d2 - f)) 0 && Qle_bool 0 (d2 - f - (d1 - e)) && Qle_bool 0 (d1 - f - (d2 - g))) eqn:T6.
  { apply andb_true_iff in T6 as [A B]. apply andb_true_iff in A as [A C]. rewrite Qle_bool_iff in A, B, C. cbn [fst snd].
    assert ((d2 - f - (d1 - e)) / (d2 - f - (d1 - e) + (d1 - f - (d2 - g))) == (d2 - f - (d1 - e)) / (e + g - 2 * f)) as Ev by (apply Qdiv_comp; [reflexivity|ring]).
    destruct (ratio_range (d2 - f - (d1 - e)) (e + g - 2 * f)) as [R1 R2]; [lra..|].
    set (w := (d2 - f - (d1 - e)) / (e + g - 2 * f)) in *.
    unfold Good. rewrite !Ev. repeat split; try lra. intros s t Hs Ht Hst. rewrite ?Ev.
    assert (w * (e + g - 2 * f) == d2 - f - (d1 - e)) as Ew by (unfold w; field; lra).
    set (r := - (((d1 - e) * (d2 - g) - (d1 - f) * (d2 - f)) / (e + g - 2 * f))).
    assert (d1 - (1 - w) * e - w * f == r) as -> by (unfold r, w; field; lra).
    assert (d2 - (1 - w) * f - w * g == r) as -> by (unfold r, w; field; lra).
    assert (((d1 - e) * (d2 - g) - (d1 - f) * (d2 - f)) / (e + g - 2 * f) <= 0) as Hr by (apply Qle_shift_div_r; lra). fold r in Hr.
    assert (0 <= r) by (unfold r; lra). nra. }
  (* zone 0 *)
  assert (~ Z1 d1 d2) as N1 by (intros [A B]; apply Qle_bool_iff in A, B; rewrite A, B in T1; done).
  assert (~ Z2 e f d1 d2) as N2 by (intros [A B]; apply Qle_bool_iff in A, B; rewrite A, B in T2; done).
  assert (~ Z3 f g d1 d2) as N3 by (intros [A B]; apply Qle_bool_iff in A, B; rewrite A, B in T3; done).
  assert (~ Z5 e f d1 d2) as N5 by (intros (A&B&C); rewrite <- Ec in A; apply Qle_bool_iff in A, B, C; rewrite A, B, C in T5; done).
  assert (~ Z4 f g d1 d2) as N4 by (intros (A&B&C); rewrite <- Eb in A; apply Qle_bool_iff in A, B, C; rewrite A, B, C in T4; done).
  assert (~ Z6 e f g d1 d2) as N6 by (intros (A&B&C); rewrite <- Ea in A; apply Qle_bool_iff in A, B, C; rewrite A, B, C in T6; done).
  pose proof (interior_a e f g d1 d2 He Hg Hh HD N1 N2 N3 N5 N4 N6) as Pa. pose proof (interior_b e f g d1 d2 He Hg Hh HD N1 N2 N3 N5 N4 N6) as Pb.
  pose proof (interior_c e f g d1 d2 He Hg Hh HD N1 N2 N3 N5 N4 N6) as Pc. rewrite <- Ea in Pa. rewrite <- Eb in Pb. rewrite <- Ec in Pc.
  clear -HD Pa Pb Pc He Hg Hh. cbn [fst snd].
  assert ((d1 - e) * (d2 - g) - (d1 - f) * (d2 - f) + ((d1 - f) * d2 - d1 * (d2 - g)) + (d1 * (d2 - f) - (d1 - e) * d2) == e * g - f * f) as ES by ring.
  set (D := e * g - f * f) in *. unfold Good. rewrite ES.
  assert (0 < 1 / D) as HI by (apply Qlt_shift_div_l; lra). assert (D * (1 / D) == 1) as HDD by (field; lra).
  split; [nra|]. split; [nra|]. split.
  { assert (((d1 - f) * d2 - d1 * (d2 - g)) + (d1 * (d2 - f) - (d1 - e) * d2) <= D) as K by (unfold D in *; lra). nra. }
  intros s t _ _ _. match goal with |- (s - ?v) * ?x + (t - ?w) * ?y <= 0 => assert (x == 0) as ->; [|assert (y == 0) as ->] end.
  - unfold D. field. unfold D in HD. lra.
  - unfold D. field. unfold D in HD. lra.
  - lra.
Qed.

(** The code computes the point with those weights. *)
Lemma Qle_bool_comp x x' y y' : x == x' -> y == y' -> Qle_bool x y = Qle_bool x' y'.
Proof. intros E1 E2. destruct (Qle_bool x y) eqn:A, (Qle_bool x' y') eqn:B; try done; [apply Qle_bool_iff in A; apply not_true_iff_false in B; rewrite Qle_bool_iff in B; exfalso; apply B; lra|apply Qle_bool_iff in B; apply not_true_iff_false in A; rewrite Qle_bool_iff in A; exfalso; apply A; lra]. Qed.
Definition affine (a b c : Q3) (v w : Q) : Q3 := at3 1 (at3 (1 - v - w) a v b) w c.
Lemma affine_comp a b c v w v' w' : v == v' -> w == w' -> Eq3 (affine a b c v w) (affine a b c v' w').
Proof. intros E1 E2. unfold Eq3, affine, at3. cbn [fst snd]. rewrite E1, E2. repeat split; reflexivity. Qed.
Lemma closest_weights p a b c :
  let e := dot3 QOps (sub3 QOps b a) (sub3 QOps b a) in let f := dot3 QOps (sub3 QOps b a) (sub3 QOps c a) in let g := dot3 QOps (sub3 QOps c a) (sub3 QOps c a) in
  let d1 := dot3 QOps (sub3 QOps b a) (sub3 QOps p a) in let d2 := dot3 QOps (sub3 QOps c a) (sub3 QOps p a) in
  Eq3 (closest_triangle QOps p a b c) (affine a b c (weights e f g d1 d2).1 (weights e f g d1 d2).2).
Proof.
  intros e f g d1 d2. unfold closest_triangle, weights. cbv zeta. fold d1 d2.
  assert (dot3 QOps (sub3 QOps b a) (sub3 QOps p b) == d1 - e) as E3.
  { unfold d1, e, dot3, sub3. destruct a as [[? ?] ?], b as [[? ?] ?], p as [[? ?] ?]. exact_ops. ring. }
  assert (dot3 QOps (sub3 QOps c a) (sub3 QOps p b) == d2 - f) as E4.
  { unfold d2, f, dot3, sub3. destruct a as [[? ?] ?], b as [[? ?] ?], c as [[? ?] ?], p as [[? ?] ?]. exact_ops. ring. }
  assert (dot3 QOps (sub3 QOps b a) (sub3 QOps p c) == d1 - f) as E5.
  { unfold d1, f, dot3, sub3. destruct a as [[? ?] ?], b as [[? ?] ?], c as [[? ?] ?], p as [[? ?] ?]. exact_ops. ring. }
  assert (dot3 QOps (sub3 QOps c a) (sub3 QOps p c) == d2 - g) as E6.
  { unfold d2, g, dot3, sub3. destruct a as [[? ?] ?], c as [[? ?] ?], p as [[? ?] ?]. exact_ops. ring. }
  set (d3 := dot3 QOps (sub3 QOps b a) (sub3 QOps p b)) in *. set (d4 := dot3 QOps (sub3 QOps c a) (sub3 QOps p b)) in *.
  set (d5 := dot3 QOps (sub3 QOps b a) (sub3 QOps p c)) in *. set (d6 := dot3 QOps (sub3 QOps c a) (sub3 QOps p c)) in *.
  clearbody d1 d2 d3 d4 d5 d6 e f g. exact_ops.
  rewrite (Qle_bool_comp 0 0 d3 (d1 - e)), (Qle_bool_comp d4 (d2 - f) d3 (d1 - e)), (Qle_bool_comp 0 0 d6 (d2 - g)), (Qle_bool_comp d5 (d1 - f) d6 (d2 - g)) by (done || reflexivity).
  rewrite (Qle_bool_comp d3 (d1 - e) 0 0), (Qle_bool_comp d6 (d2 - g) 0 0), (Qle_bool_comp 0 0 (d4 - d3) (d2 - f - (d1 - e))), (Qle_bool_comp 0 0 (d5 - d6) (d1 - f - (d2 - g))) by (rewrite ?E3, ?E4, ?E5, ?E6; reflexivity).
  assert (d1 * d4 - d3 * d2 == d1 * (d2 - f) - (d1 - e) * d2) as Ec by (rewrite E3, E4; reflexivity).
  assert (d5 * d2 - d1 * d6 == (d1 - f) * d2 - d1 * (d2 - g)) as Eb by (rewrite E5, E6; reflexivity).
  assert (d3 * d6 - d5 * d4 == (d1 - e) * (d2 - g) - (d1 - f) * (d2 - f)) as Ea by (rewrite E3, E4, E5, E6; reflexivity).
  rewrite (Qle_bool_comp _ _ 0 0 Ec), (Qle_bool_comp _ _ 0 0 Eb), (Qle_bool_comp _ _ 0 0 Ea) by reflexivity.
  destruct a as [[a0 a1] a2], b as [[b0 b1] b2], c as [[c0 c1] c2].
  repeat match goal with |- context [if ?b then _ else _] => destruct b end; unfold Eq3, affine, at3, combine; exact_ops.
  - repeat split; ring.
  - repeat split; ring.
  - repeat split; ring.
  - rewrite E3. repeat split; ring.
  - rewrite E6. repeat split; ring.
  - rewrite E3, E4, E5, E6. repeat split; ring.
  - rewrite Ea, Eb, Ec. repeat split; ring.
Qed.

Lemma sqdist_eq p q r : Eq3 q r -> sqdist3 p q == sqdist3 p r.
Proof. intros (E1&E2&E3). unfold sqdist3. rewrite E1, E2, E3. reflexivity. Qed.

Theorem C42_triangle : forall a b c, Noncollinear a b c -> forall p, ClosestOf (InTriangle3 a b c) p (closest_triangle QOps p a b c).
Proof.
  intros a b c HN p. pose proof (closest_weights p a b c) as HW. cbv zeta in HW.
  set (e := dot3 QOps (sub3 QOps b a) (sub3 QOps b a)) in *. set (f := dot3 QOps (sub3 QOps b a) (sub3 QOps c a)) in *. set (g := dot3 QOps (sub3 QOps c a) (sub3 QOps c a)) in *.
  set (d1 := dot3 QOps (sub3 QOps b a) (sub3 QOps p a)) in *. set (d2 := dot3 QOps (sub3 QOps c a) (sub3 QOps p a)) in *.
  assert (0 < e /\ 0 < g /\ 0 < e + g - 2 * f /\ 0 < e * g - f * f) as (He&Hg&Hh&HD).
  { assert (0 < e * g - f * f) as HD.
    { destruct a as [[a0 a1] a2], b as [[b0 b1] b2], c as [[c0 c1] c2]. unfold Noncollinear in HN. cbn [fst snd] in HN.
      set (n0 := (b1 - a1) * (c2 - a2) - (b2 - a2) * (c1 - a1)) in *. set (n1 := (b2 - a2) * (c0 - a0) - (b0 - a0) * (c2 - a2)) in *. set (n2 := (b0 - a0) * (c1 - a1) - (b1 - a1) * (c0 - a0)) in *.
      assert (e * g - f * f == n0 * n0 + n1 * n1 + n2 * n2) as -> by (unfold e, f, g, n0, n1, n2, dot3, sub3; exact_ops; ring).
      clearbody n0 n1 n2. clear -HN. pose proof (sq_nonneg n0). pose proof (sq_nonneg n1). pose proof (sq_nonneg n2).
      destruct (Qeq_dec n0 0) as [E0|E0]; [|pose proof (sq_pos _ E0); lra]. destruct (Qeq_dec n1 0) as [E1|E1]; [|pose proof (sq_pos _ E1); lra].
      destruct (Qeq_dec n2 0) as [E2|E2]; [|pose proof (sq_pos _ E2); lra]. exfalso. by apply HN. }
    assert (0 <= e) as He0 by (unfold e, dot3, sub3; destruct a as [[? ?] ?], b as [[? ?] ?]; exact_ops; match goal with |- 0 <= 0 + ?x * _ + ?y * _ + ?z * _ => pose proof (sq_nonneg x); pose proof (sq_nonneg y); pose proof (sq_nonneg z) end; lra).
    assert (0 <= g) as Hg0 by (unfold g, dot3, sub3; destruct a as [[? ?] ?], c as [[? ?] ?]; exact_ops; match goal with |- 0 <= 0 + ?x * _ + ?y * _ + ?z * _ => pose proof (sq_nonneg x); pose proof (sq_nonneg y); pose proof (sq_nonneg z) end; lra).
    clearbody e f g. clear -HD He0 Hg0.
    assert (0 < e) as He by (destruct (Qle_lt_or_eq _ _ He0) as [|E]; [done|rewrite <- E in HD; pose proof (sq_nonneg f); lra]).
    assert (0 < g) as Hg by (destruct (Qle_lt_or_eq _ _ Hg0) as [|E]; [done|rewrite <- E in HD; pose proof (sq_nonneg f); lra]).
    split; [done|]. split; [done|]. split; [|done].
    destruct (Qlt_le_dec 0 (e + g - 2 * f)) as [|L]; [done|]. exfalso. pose proof (sq_nonneg (e - g)). assert (e + g <= 2 * f) by lra.
    assert ((e + g) * (e + g) <= 2 * f * (2 * f)) by nra. lra. }
  destruct (weights_good e f g d1 d2 He Hg Hh HD) as (V0&W0&VW&HV). set (v := (weights e f g d1 d2).1) in *. set (w := (weights e f g d1 d2).2) in *.
  split.
  - exists (1 - v - w), v, w. split; [lra|]. split; [done|]. split; [done|]. split; [ring|done].
  - intros x (l&m&n&Hl&Hm&Hn&Hs&Hx). rewrite (sqdist_eq p _ _ HW).
    assert (Eq3 x (affine a b c m n)) as Hx'.
    { destruct Hx as (X1&X2&X3). unfold Eq3, affine, at3 in *. cbn [fst snd] in *. assert (l == 1 - m - n) as El by lra. rewrite X1, X2, X3, El. repeat split; reflexivity. }
    rewrite (sqdist_eq p _ _ Hx'). specialize (HV m n Hm Hn ltac:(lra)).
    (* |p - x|^2 = |p - q|^2 - 2 (p - q).(x - q) + |x - q|^2 *)
    assert (sqdist3 p (affine a b c m n) == sqdist3 p (affine a b c v w) - 2 * ((m - v) * (d1 - v * e - w * f) + (n - w) * (d2 - v * f - w * g)) +
      sqdist3 (affine a b c m n) (affine a b c v w)) as ->.
    { unfold d1, d2, e, f, g, sqdist3, affine, at3, dot3, sub3. destruct a as [[a0 a1] a2], b as [[b0 b1] b2], c as [[c0 c1] c2], p as [[p0 p1] p2]. exact_ops. ring. }
    assert (0 <= sqdist3 (affine a b c m n) (affine a b c v w)).
    { unfold sqdist3. generalize ((affine a b c m n).1.1 - (affine a b c v w).1.1), ((affine a b c m n).1.2 - (affine a b c v w).1.2), ((affine a b c m n).2 - (affine a b c v w).2).
      clear. intros x y z. pose proof (sq_nonneg x). pose proof (sq_nonneg y). pose proof (sq_nonneg z). lra. }
    lra.
Qed.

(** ** Segment *)
Theorem C42_segment : forall p a b, ClosestOf (InSegment3 a b) p (closest_segment QOps p a b).
Proof.
  intros [[p0 p1] p2] [[a0 a1] a2] [[b0 b1] b2]. unfold closest_segment, equals3. exact_ops.
  destruct (Qeq_bool a0 b0 && Qeq_bool a1 b1 && Qeq_bool a2 b2) eqn:E.
  - rewrite !andb_true_iff, !Qeq_bool_iff in E. destruct E as [[E0 E1] E2]. split.
    + exists 0. unfold Eq3, at3. cbn [fst snd]. repeat split; lra.
    + intros x (t&T1&T2&(X0&X1&X2)). unfold sqdist3, at3 in *. cbn [fst snd] in *. rewrite X0, X1, X2, <- E0, <- E1, <- E2. apply Qle_lteq. right. ring.
  - set (x := b0 - a0). set (y := b1 - a1). set (z := b2 - a2). unfold sub3, dot3. exact_ops.
    fold x y z. assert (0 < 0 + x * x + y * y + z * z) as HL.
    { pose proof (sq_nonneg x). pose proof (sq_nonneg y). pose proof (sq_nonneg z).
      destruct (Qeq_dec x 0) as [X|X]; [|pose proof (sq_pos _ X); lra]. destruct (Qeq_dec y 0) as [Y|Y]; [|pose proof (sq_pos _ Y); lra].
      destruct (Qeq_dec z 0) as [Z|Z]; [|pose proof (sq_pos _ Z); lra]. exfalso. apply not_true_iff_false in E. apply E.
      rewrite !andb_true_iff, !Qeq_bool_iff. unfold x, y, z in *. repeat split; lra. }
    set (L := 0 + x * x + y * y + z * z) in *. set (d := 0 + x * (p0 - a0) + y * (p1 - a1) + z * (p2 - a2)).
    assert (exists t, clamp QOps (d / L) 0 1 == t /\ 0 <= t /\ t <= 1 /\ forall s, 0 <= s -> s <= 1 -> (s - t) * (d - t * L) <= 0) as (t&Et&T1&T2&HV).
    { exists (clamp QOps (d / L) 0 1). split; [reflexivity|]. assert (d / L * L == d) as EdL by (field; lra). unfold clamp. exact_ops.
      destruct (Qltb (d / L) 0) eqn:C1; [apply Qltb_lt in C1|apply Qltb_ge in C1; destruct (Qltb 1 (d / L)) eqn:C2; [apply Qltb_lt in C2|apply Qltb_ge in C2]].
      - split; [lra|]. split; [lra|]. intros s S1 S2. assert (d <= 0) by nra. nra.
      - split; [lra|]. split; [lra|]. intros s S1 S2. assert (L <= d) by nra. nra.
      - split; [done|]. split; [done|]. intros s S1 S2. assert (d - d / L * L == 0) as -> by lra. lra. }
    split.
    + exists t. split; [done|]. split; [done|]. unfold Eq3, at3. cbn [fst snd]. rewrite Et. unfold x, y, z. repeat split; ring.
    + intros [[q0 q1] q2] (s&S1&S2&(X0&X1&X2)). unfold at3 in *. cbn [fst snd] in *. specialize (HV s S1 S2).
      unfold sqdist3. cbn [fst snd]. rewrite Et.
      assert (q0 == a0 + s * x) as -> by (rewrite X0; unfold x; ring). assert (q1 == a1 + s * y) as -> by (rewrite X1; unfold y; ring). assert (q2 == a2 + s * z) as -> by (rewrite X2; unfold z; ring).
      assert (0 <= (s - t) * (s - t) * L) as HS by (pose proof (sq_nonneg (s - t)); nra). unfold d, L in HV, HS. clear -HV HS. lra.
Qed.

(** ** Box, in any dimension *)
Lemma exact_rounding : Rounding (fun x => x) (fun x => x).
Proof. split; [done|reflexivity|reflexivity|done]. Qed.
Lemma foldl_eq l : forall s t, s == t -> foldl (fun s d : Q => s + d * d) s l == t + foldr Qplus 0 (map (fun d => d * d) l).
Proof. induction l as [|d l IH]; intros s t E; simpl; [rewrite E; ring|]. rewrite (IH _ (t + d * d)); [ring|rewrite E; reflexivity]. Qed.
Lemma dist2_foldl p : forall q, foldl (fun s d : Q => s + d * d) 0 (zip_with (fun x y => y - x) p q) == dist2 p q.
Proof.
  intros q. rewrite (foldl_eq _ 0 0) by reflexivity. unfold dist2. rewrite Qplus_0_l. revert q. induction p as [|x p IH]; intros [|y q]; simpl; try reflexivity. rewrite IH. ring.
Qed.
Theorem C42_box : forall p b, length p = length b -> BoxSpec.Proper Qltb b ->
  InBox Qltb (closest_box QOps p b) b /\ forall x, InBox Qltb x b -> dist2 p (closest_box QOps p b) <= dist2 p x.
Proof.
  intros p b HL Hb. split; [by apply (closest_in (fun x => x) (fun x => x))|]. intros x Hx.
  destruct (C37_point_box _ _ exact_rounding p b) as [H _]. specialize (H x). rewrite <- !dist2_foldl. apply H; [|done].
  rewrite HL. symmetry. by apply Forall2_length in Hx.
Qed.

(** ** Distance to a tetrahedron (ArborX_Distance.hpp:126-159) *)
(** Walking from nonnegative weights to weights some of which are negative, one of the latter vanishes first. *)
Lemma first_wall (l : list (Q * Q)) : Forall (fun w => 0 <= w.1) l -> Exists (fun w => w.2 < 0) l ->
  exists t, 0 <= t /\ t <= 1 /\ Forall (fun w => 0 <= w.1 + t * (w.2 - w.1)) l /\ Exists (fun w => w.2 < 0 /\ w.1 + t * (w.2 - w.1) == 0) l.
Proof.
  intros Hn He. induction Hn as [|[x y] l Hx Hn IH]; [inversion He|]. cbn [fst snd] in *.
  assert (forall t, 0 <= t -> t <= 1 -> 0 <= y -> 0 <= x + t * (y - x)) as Hpos by (intros t T1 T2 Hy; nra).
  assert (y < 0 -> exists t, 0 <= t /\ t <= 1 /\ x + t * (y - x) == 0 /\ forall s, s <= t -> 0 <= x + s * (y - x)) as Hneg.
  { intros Hy. destruct (ratio_range x (x - y)) as [R1 R2]; [lra..|]. exists (x / (x - y)). split; [done|]. split; [done|].
    assert (x / (x - y) * (x - y) == x) as E by (field; lra). split; [lra|]. intros s Hs. nra. }
  destruct (Exists_exists (fun w : Q * Q => w.2 < 0) l) as [_ Hex].
  destruct (decide (Exists (fun w : Q * Q => Qltb w.2 0 = true) l)) as [Hl|Hl].
  - destruct IH as (t&T1&T2&HF&HE). { apply (Exists_impl _ _ _ Hl). intros w Hw. by apply Qltb_lt. }
    destruct (Qlt_le_dec y 0) as [Hy|Hy].
    + destruct (Hneg Hy) as (s&S1&S2&S3&S4). destruct (Qlt_le_dec s t) as [L|L].
      * exists s. split; [done|]. split; [done|]. split; [|apply Exists_cons_hd; done]. constructor; [cbn; lra|].
        apply Forall_forall. intros w Hw. rewrite Forall_forall in HF, Hn. specialize (HF w Hw). specialize (Hn w Hw). clear -HF Hn L S1 T2. cbn in *. destruct (Qlt_le_dec w.2 w.1); nra.
      * exists t. split; [done|]. split; [done|]. split; [constructor; [cbn; by apply S4|done]|by apply Exists_cons_tl].
    + exists t. split; [done|]. split; [done|]. split; [constructor; [cbn; by apply Hpos|done]|by apply Exists_cons_tl].
  - assert (Forall (fun w : Q * Q => 0 <= w.2) l) as Hall.
    { apply Forall_forall. intros w Hw. destruct (Qlt_le_dec w.2 0) as [L|]; [|done]. exfalso. apply Hl, Exists_exists. exists w. split; [done|]. by apply Qltb_lt. }
    inversion He as [? ? Hy|? ? Hy]; subst; cbn in Hy.
    + destruct (Hneg Hy) as (s&S1&S2&S3&S4). exists s. split; [done|]. split; [done|]. split; [|apply Exists_cons_hd; done]. constructor; [cbn; lra|].
      apply Forall_forall. intros w Hw. rewrite Forall_forall in Hall, Hn. specialize (Hall w Hw). specialize (Hn w Hw). clear -Hall Hn S1 S2. cbn in *. nra.
    + exfalso. apply Exists_exists in Hy as (w&Hw&L). rewrite Forall_forall in Hall. specialize (Hall w Hw). cbn in *. lra.
Qed.

Lemma face_noncollinear a b c d : ~ volume a b c d == 0 -> Noncollinear a b c.
Proof.
  intros Hv (N0&N1&N2). apply Hv. unfold volume.
  transitivity ((d.1.1 - a.1.1) * ((b.1.2 - a.1.2) * (c.2 - a.2) - (b.2 - a.2) * (c.1.2 - a.1.2)) + (d.1.2 - a.1.2) * ((b.2 - a.2) * (c.1.1 - a.1.1) - (b.1.1 - a.1.1) * (c.2 - a.2)) +
    (d.2 - a.2) * ((b.1.1 - a.1.1) * (c.1.2 - a.1.2) - (b.1.2 - a.1.2) * (c.1.1 - a.1.1))); [ring|]. rewrite N0, N1, N2. ring.
Qed.
Lemma Weights3_mid a b c d x p l m n o l' m' n' o' t : Weights3 a b c d x l m n o -> Weights3 a b c d p l' m' n' o' ->
  Weights3 a b c d (at3 (1 - t) x t p) (l + t * (l' - l)) (m + t * (m' - m)) (n + t * (n' - n)) (o + t * (o' - o)).
Proof.
  intros (S&X0&X1&X2) (S'&P0&P1&P2). unfold Weights3, Eq3, at3 in *. cbn [fst snd] in *. split; [nra|]. rewrite X0, X1, X2, P0, P1, P2. repeat split; ring.
Qed.
Lemma mid_closer x p t : 0 <= t -> t <= 1 -> sqdist3 p (at3 (1 - t) x t p) <= sqdist3 p x.
Proof.
  intros T1 T2. assert (sqdist3 p (at3 (1 - t) x t p) == (1 - t) * (1 - t) * sqdist3 p x) as -> by (unfold sqdist3, at3; cbn [fst snd]; ring).
  assert (0 <= sqdist3 p x) as H. { unfold sqdist3. pose proof (sq_nonneg (p.1.1 - x.1.1)). pose proof (sq_nonneg (p.1.2 - x.1.2)). pose proof (sq_nonneg (p.2 - x.2)). lra. }
  assert ((1 - t) * (1 - t) <= 1) by nra. nra.
Qed.
Lemma face_of_tet a b c d y l m n o : Weights3 a b c d y l m n o -> 0 <= l -> 0 <= m -> 0 <= n -> o == 0 -> InTriangle3 a b c y.
Proof.
  intros (S&X0&X1&X2) Hl Hm Hn Ho. exists l, m, n. split; [done|]. split; [done|]. split; [done|]. split; [lra|].
  unfold Eq3, at3 in *. cbn [fst snd] in *. rewrite X0, X1, X2, Ho. repeat split; ring.
Qed.

(** The code keeps the distances to the closest points of the faces [p] is beyond, and answers their minimum, or 0 if
    there is none: that is the distance to the tetrahedron. *)
Theorem C42_tetrahedron : forall a b c d p, ~ volume a b c d == 0 ->
  (tet_closest QOps a b c d p = [] /\ InTet a b c d p) \/
  (tet_closest QOps a b c d p <> [] /\ ~ InTet a b c d p /\ (forall q, q ∈ tet_closest QOps a b c d p -> InTet a b c d q) /\
   forall x, InTet a b c d x -> exists q, q ∈ tet_closest QOps a b c d p /\ sqdist3 p q <= sqdist3 p x).
Proof.
  intros a b c d p Hv. pose proof (C38_tet_barycentric a b c d p Hv) as HB. destruct (barycentric3 QOps a b c d p) as [[[l m] n] o]. destruct HB as [HW HU].
  assert (~ volume b c d a == 0) as Hv1 by (rewrite volume_rot; intros H; apply Hv; lra).
  assert (~ volume c d a b == 0) as Hv2 by (rewrite volume_rot; intros H; apply Hv1; lra).
  assert (~ volume d a b c == 0) as Hv3 by (rewrite volume_rot; intros H; apply Hv2; lra).
  pose proof (Weights3_rot _ _ _ _ _ _ _ _ _ HW) as HW1. pose proof (Weights3_rot _ _ _ _ _ _ _ _ _ HW1) as HW2. pose proof (Weights3_rot _ _ _ _ _ _ _ _ _ HW2) as HW3.
  pose proof (same_half_space_ok a b c d p l m n o HW Hv) as F0. pose proof (same_half_space_ok b c d a p m n o l HW1 Hv1) as F1.
  pose proof (same_half_space_ok c d a b p n o l m HW2 Hv2) as F2. pose proof (same_half_space_ok d a b c p o l m n HW3 Hv3) as F3.
  pose proof (C38_point_tet a b c d p Hv) as HT. unfold intersects_point_tet in HT.
  assert (forall a b c d q, InTriangle3 a b c q -> InTet a b c d q) as Hface.
  { clear. intros a b c d q (l&m&n&Hl&Hm&Hn&S&X0&X1&X2). exists l, m, n, 0. do 3 (split; [done|]). split; [lra|]. split; [lra|].
    unfold Eq3, at3 in *. cbn [fst snd] in *. rewrite X0, X1, X2. repeat split; ring. }
  assert (forall a b c d q, InTet a b c d q -> InTet b c d a q) as Hrot.
  { clear. intros a b c d q (l&m&n&o&Hl&Hm&Hn&Ho&HW). exists m, n, o, l. do 4 (split; [done|]). by apply Weights3_rot. }
  assert (forall q, q ∈ tet_closest QOps a b c d p <->
    (~ 0 <= o /\ q = closest_triangle QOps p a b c) \/ (~ 0 <= l /\ q = closest_triangle QOps p b c d) \/ (~ 0 <= m /\ q = closest_triangle QOps p c d a) \/ (~ 0 <= n /\ q = closest_triangle QOps p d a b)) as Hin.
  { intros q. unfold tet_closest. cbv zeta. rewrite !elem_of_app, <- F0, <- F1, <- F2, <- F3, !not_true_iff_false.
    destruct (same_half_space QOps a b c d p), (same_half_space QOps b c d a p), (same_half_space QOps c d a b p), (same_half_space QOps d a b c p);
      rewrite ?elem_of_nil, ?elem_of_list_singleton; intuition congruence. }
  destruct (same_half_space QOps a b c d p && same_half_space QOps b c d a p && same_half_space QOps c d a b p && same_half_space QOps d a b c p) eqn:E.
  - left. split; [|by apply HT]. apply andb_true_iff in E as [E E3]. apply andb_true_iff in E as [E E2]. apply andb_true_iff in E as [E0 E1].
    unfold tet_closest. by rewrite E0, E1, E2, E3.
  - right. assert (~ InTet a b c d p) as Hout by (rewrite <- HT; done).
    assert (forall x, InTet a b c d x -> exists q, q ∈ tet_closest QOps a b c d p /\ sqdist3 p q <= sqdist3 p x) as Hmin.
    { intros x (xl&xm&xn&xo&X0&X1&X2&X3&HX).
      destruct (first_wall [(xo, o); (xl, l); (xm, m); (xn, n)]) as (t&T1&T2&HF&HE).
      - repeat constructor; done.
      - destruct (Qlt_le_dec o 0); [by constructor|]. destruct (Qlt_le_dec l 0); [by apply Exists_cons_tl; constructor|].
        destruct (Qlt_le_dec m 0); [by apply Exists_cons_tl, Exists_cons_tl; constructor|]. destruct (Qlt_le_dec n 0); [by apply Exists_cons_tl, Exists_cons_tl, Exists_cons_tl; constructor|].
        exfalso. apply Hout. exists l, m, n, o. done.
      - do 4 (apply Forall_cons in HF as [? HF]). cbn [fst snd] in *.
        pose proof (Weights3_mid _ _ _ _ _ _ _ _ _ _ _ _ _ _ t HX HW) as HY. set (y := at3 (1 - t) x t p) in *.
        pose proof (mid_closer x p t T1 T2) as Hc. fold y in Hc.
        pose proof (Weights3_rot _ _ _ _ _ _ _ _ _ HY) as HY1. pose proof (Weights3_rot _ _ _ _ _ _ _ _ _ HY1) as HY2. pose proof (Weights3_rot _ _ _ _ _ _ _ _ _ HY2) as HY3.
        assert (forall u v w z, ~ volume u v w z == 0 -> InTriangle3 u v w y -> sqdist3 p (closest_triangle QOps p u v w) <= sqdist3 p x) as Hcl.
        { intros u v w z Hz Hy. destruct (C42_triangle u v w (face_noncollinear _ _ _ _ Hz) p) as [_ Hmn]. specialize (Hmn y Hy). lra. }
        rewrite !Exists_cons, Exists_nil in HE. cbn [fst snd] in HE. destruct HE as [[N Z]|[[N Z]|[[N Z]|[[N Z]|[]]]]].
        + eexists. split; [apply Hin; left; split; [lra|done]|]. apply (Hcl a b c d Hv). apply (face_of_tet _ _ _ _ _ _ _ _ _ HY); assumption.
        + eexists. split; [apply Hin; right; left; split; [lra|done]|]. apply (Hcl b c d a Hv1). apply (face_of_tet _ _ _ _ _ _ _ _ _ HY1); assumption.
        + eexists. split; [apply Hin; right; right; left; split; [lra|done]|]. apply (Hcl c d a b Hv2). apply (face_of_tet _ _ _ _ _ _ _ _ _ HY2); assumption.
        + eexists. split; [apply Hin; right; right; right; split; [lra|done]|]. apply (Hcl d a b c Hv3). apply (face_of_tet _ _ _ _ _ _ _ _ _ HY3); assumption. }
    split; [|split; [done|split; [|done]]].
    + intros En. destruct (Hmin a) as (q&Hq&_); [|rewrite En in Hq; by apply elem_of_nil in Hq].
      exists 1, 0, 0, 0. unfold Weights3, Eq3, at3. cbn [fst snd]. repeat split; lra.
    + intros q Hq. apply Hin in Hq as [[_ ->]|[[_ ->]|[[_ ->]|[_ ->]]]].
      * apply Hface, C42_triangle. by apply (face_noncollinear _ _ _ d).
      * apply Hrot, Hrot, Hrot, Hface, C42_triangle. by apply (face_noncollinear _ _ _ a).
      * apply Hrot, Hrot, Hface, C42_triangle. by apply (face_noncollinear _ _ _ b).
      * apply Hrot, Hface, C42_triangle. by apply (face_noncollinear _ _ _ c).
Qed.

Example C42_example :
  Noncollinear (0, 0, 0) (4, 0, 0) (0, 4, 0) /\
  Eq3 (closest_triangle QOps (1, 1, 5) (0, 0, 0) (4, 0, 0) (0, 4, 0)) (1, 1, 0) /\
  Eq3 (closest_segment QOps (1, 1, 5) (0, 0, 0) (4, 0, 0)) (1, 0, 0) /\
  ~ volume (0, 0, 0) (1, 0, 0) (0, 1, 0) (0, 0, 1) == 0 /\ length (tet_closest QOps (0, 0, 0) (1, 0, 0) (0, 1, 0) (0, 0, 1) (-1, -1, 0)) = 2%nat /\
  tet_closest QOps (0, 0, 0) (1, 0, 0) (0, 1, 0) (0, 0, 1) (1 # 4, 1 # 4, 1 # 4) = [].
Proof. vm_compute. repeat split; try discriminate. intros (?&?&?). discriminate. Qed.
Print Assumptions C42_triangle.
Print Assumptions C42_segment.
Print Assumptions C42_box.
Print Assumptions C42_tetrahedron.
