(** C60 continued: a ray in the plane of the triangle, over the real numbers. *)
From Coq Require Import Reals Lra Psatz.
From Verif Require Import Base GeomOps BoxModel ShapeModel RayModel PropertiesRayReal.
Local Open Scope R_scope.

(** ** In the rotated plane: the line x = 0 against a triangle *)
Section Plane.
Notation R2 := (R * R)%type.
Definition crossing (p q : R2) : R := (p.1 * q.2 - q.1 * p.2) / (p.1 - q.1).
Lemma edge_cases p q : ~ (p.2 = 0 /\ q.2 = 0) ->
  (ray_edge ROps 0 p q = Some (crossing p q) /\ p.1 <> q.1 /\ p.1 * q.1 <= 0) \/ (ray_edge ROps 0 p q = None /\ (p.1 = q.1 \/ 0 < p.1 * q.1)).
Proof.
  destruct p as [x3 y3], q as [x4 y4]. cbn [fst snd]. intros Hy. unfold ray_edge, crossing. real_ops.
  set (y := if Rltb (kabs ROps y4) (kabs ROps y3) then y3 else y4).
  assert (y <> 0) as Hy0.
  { unfold y, kabs. real_ops. intros E. apply Hy. destruct (Rltb y4 0) eqn:E4, (Rltb y3 0) eqn:E3; revert E; match goal with |- context [Rltb ?a ?b] => destruct (Rltb a b) eqn:E5 end;
      rewrite ?Rltb_lt, ?Rltb_ge in *; intros; subst; split; lra. }
  destruct (Req_EM_T x3 x4) as [->|Hne].
  - right. rewrite (proj2 (Reqb_eq _ _)) by ring. split; [done|by left].
  - assert (x3 - x4 <> 0) as Hd by lra. assert (y * (x3 - x4) <> 0) as Hdet by (by apply Rmult_integral_contrapositive_currified).
    rewrite (proj2 (Reqb_ne _ _)) by done.
    replace ((x3 * y4 - x4 * y3) / (y * (x3 - x4)) * y) with ((x3 * y4 - x4 * y3) / (x3 - x4)) by (field; done).
    replace (x3 * y / (y * (x3 - x4))) with (x3 / (x3 - x4)) by (field; done). set (s := x3 / (x3 - x4)).
    assert (s * (1 - s) * ((x3 - x4) * (x3 - x4)) = - (x3 * x4)) as Es by (unfold s; field; done).
    assert (0 < (x3 - x4) * (x3 - x4)) as Hp by (pose proof (Rsqr_pos_lt _ Hd); done).
    destruct (Rleb (0 - 0) s && Rleb s (1 + 0)) eqn:Eb.
    + left. split; [done|]. split; [done|]. apply andb_true_iff in Eb as [E1 E2]. rewrite Rleb_le in E1, E2. assert (0 <= s * (1 - s)) by (apply Rmult_le_pos; lra). nra.
    + right. split; [done|]. right. apply andb_false_iff in Eb. assert (s * (1 - s) < 0); [|nra].
      destruct Eb as [E|E]; assert (~ (_ <= _)) as E' by (intros E'; apply Rleb_le in E'; rewrite E' in E; done); nra.
Qed.
Lemma crossing_sym p q : p.1 <> q.1 -> crossing p q = crossing q p.
Proof. intros H. unfold crossing. field. lra. Qed.
Lemma crossing_on p q : p.1 <> q.1 -> p.1 * q.1 <= 0 -> exists l m, 0 <= l /\ 0 <= m /\ l + m = 1 /\ l * p.1 + m * q.1 = 0 /\ l * p.2 + m * q.2 = crossing p q.
Proof.
  intros Hne Hs. assert (p.1 - q.1 <> 0) as Hd by lra. exists (- q.1 / (p.1 - q.1)), (p.1 / (p.1 - q.1)). unfold crossing.
  assert (0 < (p.1 - q.1) * (p.1 - q.1)) as Hp by (pose proof (Rsqr_pos_lt _ Hd); done).
  assert (forall x, 0 <= x * (p.1 - q.1) -> 0 <= x / (p.1 - q.1)) as Hdiv.
  { intros x Hx. replace (x / (p.1 - q.1)) with (x * (p.1 - q.1) / ((p.1 - q.1) * (p.1 - q.1))) by (field; done). apply Rmult_le_pos; [done|]. by apply Rlt_le, Rinv_0_lt_compat. }
  split_and!; [apply Hdiv; nra|apply Hdiv; nra|field; done|field; done|field; done].
Qed.

Definition On (a b c : R2) (t : R) : Prop := exists l m n, 0 <= l /\ 0 <= m /\ 0 <= n /\ l + m + n = 1 /\ l * a.1 + m * b.1 + n * c.1 = 0 /\ t = l * a.2 + m * b.2 + n * c.2.
Lemma On_rot a b c t : On a b c t <-> On b c a t.
Proof. split; intros (l&m&n&H1&H2&H3&S&E&T); [exists m, n, l|exists n, l, m]; split_and!; lra. Qed.
Lemma On_edge a b c : a.1 <> b.1 -> a.1 * b.1 <= 0 -> On a b c (crossing a b).
Proof. intros Hne Hs. destruct (crossing_on a b Hne Hs) as (l&m&H1&H2&S&E&T). exists l, m, 0. split_and!; lra. Qed.
Lemma On_convex a b c s t x : On a b c s -> On a b c t -> s <= x <= t -> On a b c x.
Proof.
  intros (l&m&n&H1&H2&H3&S&E&T) (l'&m'&n'&H1'&H2'&H3'&S'&E'&T') Hx. destruct (Req_EM_T s t) as [Est|Hne]; [exists l, m, n; split_and!; lra|].
  set (k := (x - s) / (t - s)). assert (k * (t - s) = x - s) as Ek by (unfold k; field; lra). assert (0 <= k <= 1) as Hk by nra.
  exists ((1 - k) * l + k * l'), ((1 - k) * m + k * m'), ((1 - k) * n + k * n').
  split_and!; try nra.
Qed.
(** the apex a is on one side, b and c are on the other *)
Lemma fan a b c t : (a.1 < 0 /\ 0 <= b.1 /\ 0 <= c.1) \/ (0 < a.1 /\ b.1 <= 0 /\ c.1 <= 0) -> On a b c t ->
  crossing a b <= t <= crossing a c \/ crossing a c <= t <= crossing a b.
Proof.
  intros Hs (l&m&n&H1&H2&H3&S&E&T). assert (a.1 <> 0) as Ha by lra. assert (a.1 - b.1 <> 0) as Hb by lra. assert (a.1 - c.1 <> 0) as Hc by lra.
  set (k := m * (a.1 - b.1) / a.1). set (k' := n * (a.1 - c.1) / a.1).
  assert (k + k' = 1) as Ek. { unfold k, k'. apply (Rmult_eq_reg_r a.1); [|done]. field_simplify; [|done]. assert (m * b.1 + n * c.1 = - l * a.1) by lra. assert (l = 1 - m - n) by lra. subst l. lra. }
  assert (k * crossing a b + k' * crossing a c = t) as Et.
  { unfold k, k', crossing. transitivity ((m * (a.1 * b.2 - b.1 * a.2) + n * (a.1 * c.2 - c.1 * a.2)) / a.1); [field; split_and!; done|].
    apply (Rmult_eq_reg_r a.1); [|done]. unfold Rdiv. rewrite Rmult_assoc, Rinv_l, Rmult_1_r by done. rewrite T.
    assert (m * b.1 + n * c.1 = - l * a.1) as F by lra. transitivity (a.1 * (m * b.2 + n * c.2) - (m * b.1 + n * c.1) * a.2); [ring|]. rewrite F. ring. }
  assert (forall x, 0 <= x * a.1 -> 0 <= x / a.1) as Hdiv.
  { intros x Hx. replace (x / a.1) with (x * a.1 / (a.1 * a.1)) by (field; done). apply Rmult_le_pos; [done|]. apply Rlt_le, Rinv_0_lt_compat. pose proof (Rsqr_pos_lt _ Ha). done. }
  assert (0 <= k) as Hk by (apply Hdiv; destruct Hs; [assert (0 <= m * ((a.1 - b.1) * a.1)) by (apply Rmult_le_pos; nra)|assert (0 <= m * ((a.1 - b.1) * a.1)) by (apply Rmult_le_pos; nra)]; lra).
  assert (0 <= k') as Hk' by (apply Hdiv; destruct Hs; [assert (0 <= n * ((a.1 - c.1) * a.1)) by (apply Rmult_le_pos; nra)|assert (0 <= n * ((a.1 - c.1) * a.1)) by (apply Rmult_le_pos; nra)]; lra).
  assert (k = 1 - k') as E1 by lra. rewrite E1 in Et. rewrite <- Et. destruct (Rle_lt_dec (crossing a b) (crossing a c)); [left|right]; split; nra.
Qed.
Definition Crosses (a b c : R2) (t : R) : Prop :=
  (a.1 <> b.1 /\ a.1 * b.1 <= 0 /\ t = crossing a b) \/ (b.1 <> c.1 /\ b.1 * c.1 <= 0 /\ t = crossing b c) \/ (c.1 <> a.1 /\ c.1 * a.1 <= 0 /\ t = crossing c a).
Lemma Crosses_rot a b c t : Crosses a b c t -> Crosses b c a t.
Proof. unfold Crosses. tauto. Qed.
Lemma crosses_on a b c t : Crosses a b c t -> On a b c t.
Proof.
  intros [(H1&H2&->)|[(H1&H2&->)|(H1&H2&->)]]; [by apply On_edge|apply On_rot; by apply On_edge|apply On_rot, On_rot; by apply On_edge].
Qed.
Lemma fan_cover a b c t : (a.1 < 0 /\ 0 <= b.1 /\ 0 <= c.1) \/ (0 < a.1 /\ b.1 <= 0 /\ c.1 <= 0) -> On a b c t -> exists t1 t2, Crosses a b c t1 /\ Crosses a b c t2 /\ t1 <= t <= t2.
Proof.
  intros Hs HO. assert (Crosses a b c (crossing a b)) as C1 by (left; split_and!; [lra|destruct Hs; nra|done]).
  assert (Crosses a b c (crossing a c)) as C2 by (right; right; split_and!; [lra|destruct Hs; nra|apply crossing_sym; lra]).
  destruct (fan a b c t Hs HO); eauto.
Qed.
Lemma touch_cover a b c t : (a.1 < 0 /\ b.1 < 0 /\ c.1 = 0) \/ (0 < a.1 /\ 0 < b.1 /\ c.1 = 0) -> On a b c t -> exists t1 t2, Crosses a b c t1 /\ Crosses a b c t2 /\ t1 <= t <= t2.
Proof.
  intros Hs (l&m&n&H1&H2&H3&S&E&T). assert (l = 0 /\ m = 0) as [-> ->] by (destruct Hs as [(A&B&C)|(A&B&C)]; rewrite C in E; nra). assert (n = 1) as -> by lra.
  assert (Crosses a b c t) as HC; [|exists t, t; split_and!; (done || lra)]. right; left. split_and!; [lra|destruct Hs; nra|]. rewrite T. unfold crossing. assert (c.1 = 0) as -> by lra. field. lra.
Qed.
Lemma cover a b c t : ~ (a.1 = 0 /\ b.1 = 0 /\ c.1 = 0) -> On a b c t -> exists t1 t2, Crosses a b c t1 /\ Crosses a b c t2 /\ t1 <= t <= t2.
Proof.
  intros Hne HO.
  assert (((a.1 < 0 /\ 0 <= b.1 /\ 0 <= c.1) \/ (0 < a.1 /\ b.1 <= 0 /\ c.1 <= 0)) \/ ((b.1 < 0 /\ 0 <= c.1 /\ 0 <= a.1) \/ (0 < b.1 /\ c.1 <= 0 /\ a.1 <= 0)) \/
    ((c.1 < 0 /\ 0 <= a.1 /\ 0 <= b.1) \/ (0 < c.1 /\ a.1 <= 0 /\ b.1 <= 0)) \/
    ((a.1 < 0 /\ b.1 < 0 /\ c.1 = 0) \/ (0 < a.1 /\ 0 < b.1 /\ c.1 = 0)) \/ ((b.1 < 0 /\ c.1 < 0 /\ a.1 = 0) \/ (0 < b.1 /\ 0 < c.1 /\ a.1 = 0)) \/ ((c.1 < 0 /\ a.1 < 0 /\ b.1 = 0) \/ (0 < c.1 /\ 0 < a.1 /\ b.1 = 0)) \/
    ((a.1 < 0 /\ b.1 < 0 /\ c.1 < 0) \/ (0 < a.1 /\ 0 < b.1 /\ 0 < c.1))) as HC.
  { destruct (Rtotal_order a.1 0) as [|[|]], (Rtotal_order b.1 0) as [|[|]], (Rtotal_order c.1 0) as [|[|]];
    first [exfalso; tauto
    |left; first [left; lra|right; lra]|right; left; first [left; lra|right; lra]|right; right; left; first [left; lra|right; lra]
    |right; right; right; left; first [left; lra|right; lra]|right; right; right; right; left; first [left; lra|right; lra]
    |right; right; right; right; right; left; first [left; lra|right; lra]|right; right; right; right; right; right; first [left; lra|right; lra]]. }
  destruct HC as [H|[H|[H|[H|[H|[H|H]]]]]].
  - by apply fan_cover.
  - apply (proj1 (On_rot _ _ _ _)) in HO. destruct (fan_cover b c a t H HO) as (t1&t2&H1&H2&H3). exists t1, t2. split_and!; try lra; by do 2 apply Crosses_rot.
  - do 2 apply (proj1 (On_rot _ _ _ _)) in HO. destruct (fan_cover c a b t H HO) as (t1&t2&H1&H2&H3). exists t1, t2. split_and!; try lra; by apply Crosses_rot.
  - by apply touch_cover.
  - apply (proj1 (On_rot _ _ _ _)) in HO. destruct (touch_cover b c a t H HO) as (t1&t2&H1&H2&H3). exists t1, t2. split_and!; try lra; by do 2 apply Crosses_rot.
  - do 2 apply (proj1 (On_rot _ _ _ _)) in HO. destruct (touch_cover c a b t H HO) as (t1&t2&H1&H2&H3). exists t1, t2. split_and!; try lra; by apply Crosses_rot.
  - exfalso. destruct HO as (l&m&n&H1&H2&H3&S&E&T). assert (l * a.1 = 0 /\ m * b.1 = 0 /\ n * c.1 = 0) as (E1&E2&E3).
    { destruct H as [(?&?&?)|(?&?&?)]; [assert (l * a.1 <= 0) by nra; assert (m * b.1 <= 0) by nra; assert (n * c.1 <= 0) by nra|assert (0 <= l * a.1) by nra; assert (0 <= m * b.1) by nra; assert (0 <= n * c.1) by nra]; lra. }
    apply Rmult_integral in E1, E2, E3. lra.
Qed.
End Plane.

(** ** The hits collected by the code *)
Section Hits.
Variable inf : R.
Definition Best (S : R -> Prop) (t : R * R) : Prop := ((forall x, ~ S x) /\ t = (inf, - inf)) \/ (S t.1 /\ S t.2 /\ forall x, S x -> t.1 <= x <= t.2).
Lemma best_join (S : R -> Prop) t h : (forall x, S x -> - inf < x < inf) -> (forall x, h = Some x -> - inf < x < inf) -> Best S t -> Best (fun x => S x \/ h = Some x) (join_hit ROps t h).
Proof.
  intros HS Hh HB. destruct h as [y|]; cbn [join_hit].
  - specialize (Hh y eq_refl). unfold kmin, kmax. real_ops. right. destruct HB as [[HN ->]|(H1 & H2 & H3)]; cbn [fst snd].
    + rewrite (proj2 (Rltb_lt y inf)) by lra. rewrite (proj2 (Rltb_lt (- inf) y)) by lra. split; [by right|]. split; [by right|]. intros x [Hx|[= ->]]; [by destruct (HN x)|lra].
    + destruct (Rltb y t.1) eqn:E1, (Rltb t.2 y) eqn:E2; rewrite ?Rltb_lt, ?Rltb_ge in *; (split; [(by left) || (by right)|split; [(by left) || (by right)|]]; intros x [Hx|[= ->]]; [specialize (H3 x Hx)|]; lra).
  - destruct HB as [[HN ->]|(H1 & H2 & H3)]; [left; split; [|done]; intros x [Hx|?]; [by destruct (HN x)|done]|]. right. split; [by left|]. split; [by left|]. intros x [Hx|?]; [by apply H3|done].
Qed.
End Hits.

(** the interval [lo, hi] of parameters as the code reports it *)
Definition report (lo hi : R) : bool * R * R := if Rle_dec (lo * hi) 0 then (true, 0, 0) else if Rlt_dec lo 0 then (true, hi, lo) else (true, lo, hi).

Lemma coplanar_plane inf A B C a b c : rotate2D ROps A = a -> rotate2D ROps B = b -> rotate2D ROps C = c ->
  ~ (a.1 = 0 /\ b.1 = 0 /\ c.1 = 0) -> ~ (a.2 = 0 /\ b.2 = 0) -> ~ (b.2 = 0 /\ c.2 = 0) -> ~ (c.2 = 0 /\ a.2 = 0) -> (forall t, On a b c t -> - inf < t < inf) ->
  (coplanar ROps inf 0 A B C = (false, inf, - inf) /\ forall t, ~ On a b c t) \/
  (exists lo hi, lo <= hi /\ coplanar ROps inf 0 A B C = report lo hi /\ forall t, On a b c t <-> lo <= t <= hi).
Proof.
  intros Ea Eb Ec Hx Hab Hbc Hca Hinf. unfold coplanar. rewrite Ea, Eb, Ec.
  pose proof (edge_cases a b Hab) as Cab. pose proof (edge_cases b c Hbc) as Cbc. pose proof (edge_cases c a Hca) as Cca.
  set (ab := ray_edge ROps 0 a b) in *. set (bc := ray_edge ROps 0 b c) in *. set (ca := ray_edge ROps 0 c a) in *. change (ray_edge ROps (o_zero ROps)) with (ray_edge ROps 0) in *.
  assert (forall t, Crosses a b c t <-> ab = Some t \/ bc = Some t \/ ca = Some t) as HC.
  { intros t. unfold Crosses. split.
    - intros [(H1&H2&->)|[(H1&H2&->)|(H1&H2&->)]]; [left|right; left|right; right].
      + destruct Cab as [(->&_)|(_&[?|?])]; [done|done|lra]. 
      + destruct Cbc as [(->&_)|(_&[?|?])]; [done|done|lra]. 
      + destruct Cca as [(->&_)|(_&[?|?])]; [done|done|lra].
    - intros [E|[E|E]]; [left|right; left|right; right].
      + destruct Cab as [(E'&?&?)|(E'&_)]; rewrite E' in E; [|done]. injection E as <-. done.
      + destruct Cbc as [(E'&?&?)|(E'&_)]; rewrite E' in E; [|done]. injection E as <-. done.
      + destruct Cca as [(E'&?&?)|(E'&_)]; rewrite E' in E; [|done]. injection E as <-. done. }
  assert (forall t, ab = Some t \/ bc = Some t \/ ca = Some t -> - inf < t < inf) as Hb by (intros t Ht; apply Hinf, crosses_on, HC, Ht).
  assert (Best inf (fun t => ab = Some t) (match ab with Some x => (x, x) | None => (inf, o_opp ROps inf) end)) as B1.
  { destruct ab as [x|]; [right; cbn [fst snd]; split; [done|]; split; [done|]; intros y [= ->]; lra|left; by split]. }
  assert (Best inf (fun t => ab = Some t \/ bc = Some t) (join_hit ROps (match ab with Some x => (x, x) | None => (inf, o_opp ROps inf) end) bc)) as B2 by (apply best_join; [intros; apply Hb; tauto|intros; apply Hb; tauto|done]).
  assert (Best inf (fun t => (ab = Some t \/ bc = Some t) \/ ca = Some t) (join_hit ROps (join_hit ROps (match ab with Some x => (x, x) | None => (inf, o_opp ROps inf) end) bc) ca)) as B3
    by (apply best_join; [intros; apply Hb; tauto|intros; apply Hb; tauto|done]).
  set (t := join_hit ROps (join_hit ROps _ bc) ca) in *. clear B1 B2. destruct B3 as [[HN Et]|(H1 & H2 & H3)].
  - left. assert (ab = None) as -> by (destruct ab as [x|]; [destruct (HN x); by left; left|done]). assert (bc = None) as -> by (destruct bc as [x|]; [destruct (HN x); by left; right|done]).
    assert (ca = None) as -> by (destruct ca as [x|]; [destruct (HN x); by right|done]). rewrite Et. split; [done|]. intros s Hs. destruct (cover a b c s Hx Hs) as (t1&_&Ht1&_). apply HC in Ht1. apply (HN t1). tauto.
  - right. exists t.1, t.2. split; [apply (H3 t.2 H2)|]. split.
    + unfold report. real_ops. unfold Rleb, Rltb. clearbody t. clear - H1. destruct (Rle_dec (t.1 * t.2) 0), (Rlt_dec t.1 0), ab, bc, ca; try reflexivity; exfalso; clear - H1; destruct H1 as [[?|?]|?]; discriminate.
    + assert (forall x, Crosses a b c x -> t.1 <= x <= t.2) as HI by (intros x Hx'; apply H3; apply HC in Hx'; destruct Hx' as [?|[?|?]]; [by left; left|by left; right|by right]).
      assert (forall x, (ab = Some x \/ bc = Some x) \/ ca = Some x -> Crosses a b c x) as HJ by (intros x Hx'; apply HC; destruct Hx' as [[?|?]|?]; [by left|by right; left|by right; right]).
      clearbody t ab bc ca. intros s. split.
      * intros Hs. destruct (cover a b c s Hx Hs) as (t1&t2&Ht1&Ht2&Hle). pose proof (HI t1 Ht1). pose proof (HI t2 Ht2). lra.
      * intros Hs. apply (On_convex a b c t.1 t.2); [by apply crosses_on, HJ|by apply crosses_on, HJ|done].
Qed.

(** ** The rotation *)
Lemma rotate_line w0 w1 : ~ (w0 = 0 /\ w1 = 0) -> exists k, k <> 0 /\ forall l z, rotate2D ROps (l * w0, l * w1, z) = (k * l, z).
Proof.
  intros Hw. assert (0 < w0 * w0 + w1 * w1) as Hp.
  { destruct (Req_EM_T w0 0) as [->|H]; [destruct (Req_EM_T w1 0) as [->|H]; [by destruct Hw|]|]; pose proof (Rsqr_pos_lt _ H); unfold Rsqr in *; nra. }
  set (r := R_sqrt.sqrt (w0 * w0 + w1 * w1)). assert (0 < r) as Hr by (by apply sqrt_lt_R0).
  assert (forall l, R_sqrt.sqrt (l * w0 * (l * w0) + l * w1 * (l * w1)) = Rabs l * r) as HS.
  { intros l. replace (l * w0 * (l * w0) + l * w1 * (l * w1)) with (Rsqr l * (w0 * w0 + w1 * w1)) by (unfold Rsqr; ring). rewrite sqrt_mult by (apply Rle_0_sqr || lra). by rewrite sqrt_Rsqr_abs. }
  exists (if Req_EM_T w0 0 then (if Rlt_dec 0 w1 then r else - r) else (if Rlt_dec 0 w0 then r else - r)).
  split; [repeat destruct Req_EM_T; repeat destruct Rlt_dec; lra|]. intros l z. unfold rotate2D. real_ops. rewrite HS. f_equal.
  destruct (Req_EM_T l 0) as [->|Hl].
  { rewrite Rabs_R0. rewrite !Rmult_0_l. rewrite !Rmult_0_r. destruct (negb _); lra. }
  unfold Reqb, Rltb. destruct (Req_EM_T w0 0) as [E0|H0].
  - destruct (Req_EM_T (l * w0) 0) as [_|H]; [|rewrite E0 in H; lra]. cbn [negb]. assert (w1 <> 0) as H1 by tauto.
    destruct (Rlt_dec 0 (l * w1)), (Rlt_dec 0 w1), (Rlt_dec 0 l); try (rewrite Rabs_right by lra); try (rewrite Rabs_left by lra); try lra; exfalso; nra.
  - destruct (Req_EM_T (l * w0) 0) as [H|_]; [exfalso; apply Rmult_integral in H; tauto|]. cbn [negb].
    destruct (Rlt_dec 0 (l * w0)), (Rlt_dec 0 w0), (Rlt_dec 0 l); try (rewrite Rabs_right by lra); try (rewrite Rabs_left by lra); try lra; exfalso; nra.
Qed.

(** ** From the ray and the triangle to the plane *)
Lemma largest_max d k : (k < 3)%nat -> Rabs (pick d k) <= Rabs (pick d (largest_comp ROps d)).
Proof.
  destruct d as [[x y] z]. intros Hk. unfold largest_comp, kabs. real_ops.
  destruct (Rltb x 0) eqn:Ex, (Rltb y 0) eqn:Ey, (Rltb z 0) eqn:Ez; repeat match goal with |- context [Rltb ?a ?b] => destruct (Rltb a b) eqn:?; cbn [fst snd] end;
    rewrite ?Rltb_lt, ?Rltb_ge in *; destruct k as [|[|[|k]]]; cbn [pick]; try lia; unfold Rabs; repeat destruct Rcase_abs; lra.
Qed.
Lemma R3_dec (v : R3) : v = (0, 0, 0) \/ v <> (0, 0, 0).
Proof. destruct v as [[x y] z]. destruct (Req_dec x 0) as [->|]; [|right; congruence]. destruct (Req_dec y 0) as [->|]; [|right; congruence]. destruct (Req_dec z 0) as [->|]; [by left|right; congruence]. Qed.
Lemma spread_pos o a b c : rcross (rsub b a) (rsub c a) <> (0, 0, 0) -> 0 < spread o a b c.
Proof.
  intros Hc. unfold spread. assert (forall v, v <> (0, 0, 0) -> 0 < R_sqrt.sqrt (rdot v v)) as HP.
  { intros v Hv. pose proof (norm_pos v Hv) as H. destruct v as [[x y] z]. unfold norm3, dot3 in H. real_ops. unfold rdot. cbn [fst snd]. replace (x * x + y * y + z * z) with (0 + x * x + y * y + z * z) by ring. exact H. }
  pose proof (sqrt_pos (rdot (rsub a o) (rsub a o))). pose proof (sqrt_pos (rdot (rsub b o) (rsub b o))). pose proof (sqrt_pos (rdot (rsub c o) (rsub c o))).
  destruct (R3_dec (rsub a o)) as [Ea|Ea]; [|apply HP in Ea; lra]. destruct (R3_dec (rsub b o)) as [Eb|Eb]; [|apply HP in Eb; lra].
  exfalso. apply Hc. destruct o as [[ox oy] oz], a as [[ax ay] az], b as [[bx by_] bz], c as [[cx cy] cz]. unfold rsub, rcross in *. cbn [fst snd] in *. injection Ea as ? ? ?. injection Eb as ? ? ?.
  assert (bx = ax) as -> by lra. assert (by_ = ay) as -> by lra. assert (bz = az) as -> by lra. apply f_equal2; [apply f_equal2|]; ring.
Qed.
Lemma ray_triangle_code inf eps1 eps2 o d a b c : d <> (0, 0, 0) -> rcross (rsub b a) (rsub c a) <> (0, 0, 0) ->
  let kz := largest_comp ROps d in exists kx ky, Axes kx ky kz /\ pick d kz <> 0 /\ 3 / spread o a b c <> 0 /\
  let sh v := shear ROps (pick d kx * (1 / pick d kz)) (pick d ky * (1 / pick d kz)) (1 / pick d kz) (3 / spread o a b c) kx ky kz (rsub v o) in
  let A := sh a in let B := sh b in let C := sh c in
  let u := C.1.1 * B.1.2 - C.1.2 * B.1.1 in let v := A.1.1 * C.1.2 - A.1.2 * C.1.1 in let w := B.1.1 * A.1.2 - B.1.2 * A.1.1 in
  ray_triangle ROps inf eps1 eps2 o d a b c = if cross_code eps1 u v w then (false, inf, - inf) else
    if Rltb (u + v + w) (- eps1) || Rltb eps1 (u + v + w) then let t := (u * A.2 + v * B.2 + w * C.2) / (u + v + w) in (true, t, t) else coplanar ROps inf eps2 A B C.
Proof.
  intros Hd0 HC kz. pose proof (largest_nonzero d Hd0) as Hz. pose proof (largest_range d) as Hr. fold kz in Hz, Hr.
  assert (forall p q, norm3 ROps (sub3 ROps p q) = R_sqrt.sqrt (rdot (rsub p q) (rsub p q))) as HN.
  { intros [[px py] pz] [[qx qy] qz]. unfold norm3, dot3, sub3, rdot, rsub. real_ops. f_equal. ring. }
  pose proof (spread_pos o a b c HC) as HS.
  assert (3 / spread o a b c <> 0) as Hm. { apply Rmult_integral_contrapositive_currified; [lra|]. apply Rinv_neq_0_compat. lra. }
  destruct (if Rltb (pick d kz) 0 then ((kz + 2) mod 3, (kz + 1) mod 3)%nat else ((kz + 1) mod 3, (kz + 2) mod 3)%nat) as [kx ky] eqn:Ek.
  exists kx, ky. split.
  { clear -Ek Hr. clearbody kz. unfold Axes. destruct kz as [|[|[|kz]]]; [| | |exfalso; apply Nat.lt_irrefl with 3%nat; eapply Nat.le_lt_trans; [|exact Hr]; do 3 apply le_n_S; apply Nat.le_0_l]; cbn in Ek; destruct (Rltb _ 0); injection Ek as <- <-; tauto. }
  split; [done|]. split; [done|]. assert (forall p, sub3 ROps p o = rsub p o) as Hsub by (intros [[px py] pz]; destruct o as [[ox oy] oz]; reflexivity).
  cbv zeta. unfold ray_triangle. real_ops. fold kz. change ((kz + 2) mod 3)%nat with (Nat.modulo (kz + 2) 3) in *. rewrite Ek. cbv zeta.
  rewrite !HN, !Hsub. fold (spread o a b c). replace (1 + 1 + 1) with 3 by ring. unfold shear at 1 2 3. real_ops. unfold cross_code. reflexivity.
Qed.

(** The code with zero tolerances on a ray parallel to the plane of a triangle of non-zero area: either it misses and the line of
    the ray does not meet the triangle, or it reports the interval of parameters of the common points, as [report] puts it.  Missing:
    triangles with two vertices in the plane through the origin perpendicular to the axis of the largest component of the
    direction; see C60_false_negative_refuted. *)
Theorem C60_coplanar_partial : forall inf o d a b c, d <> (0, 0, 0) -> rcross (rsub b a) (rsub c a) <> (0, 0, 0) -> rdot d (rcross (rsub b a) (rsub c a)) = 0 ->
  (forall t, InTri a b c (rpoint o t d) -> - inf < t < inf) ->
  (forall k, (k < 3)%nat -> (forall j, (j < 3)%nat -> Rabs (pick d j) <= Rabs (pick d k)) ->
     ~ (pick a k = pick o k /\ pick b k = pick o k) /\ ~ (pick b k = pick o k /\ pick c k = pick o k) /\ ~ (pick c k = pick o k /\ pick a k = pick o k)) ->
  (ray_triangle ROps inf 0 0 o d a b c = (false, inf, - inf) /\ forall t, ~ InTri a b c (rpoint o t d)) \/
  (exists lo hi, lo <= hi /\ ray_triangle ROps inf 0 0 o d a b c = report lo hi /\ forall t, InTri a b c (rpoint o t d) <-> lo <= t <= hi).
Proof.
  intros inf o d a b c Hd HC Hpar Hinf Hk. destruct (ray_triangle_code inf 0 0 o d a b c Hd HC) as (kx & ky & Hax & Hz & Hm & E). cbv beta zeta in E.
  pose proof (Hk (largest_comp ROps d) (largest_range d) (fun j Hj => largest_max d j Hj)) as Hvert.
  set (kz := largest_comp ROps d) in *. set (mag := 3 / spread o a b c) in *.
  destruct (sheared_det o d a b c kx ky kz mag Hax Hz) as (sg & _ & Hdet). rewrite Hpar in Hdet.
  pose proof (sheared_weights o d a b c kx ky kz mag Hax Hz Hm) as HW.
  set (s2 := 1 / pick d kz) in *. set (s0 := pick d kx * s2) in *. set (s1 := pick d ky * s2) in *.
  set (A0 := (pick (rsub a o) kx - s0 * pick (rsub a o) kz) * mag) in *. set (A1 := (pick (rsub a o) ky - s1 * pick (rsub a o) kz) * mag) in *.
  set (B0 := (pick (rsub b o) kx - s0 * pick (rsub b o) kz) * mag) in *. set (B1 := (pick (rsub b o) ky - s1 * pick (rsub b o) kz) * mag) in *.
  set (C0 := (pick (rsub c o) kx - s0 * pick (rsub c o) kz) * mag) in *. set (C1 := (pick (rsub c o) ky - s1 * pick (rsub c o) kz) * mag) in *.
  set (za := s2 * pick (rsub a o) kz) in *. set (zb := s2 * pick (rsub b o) kz) in *. set (zc := s2 * pick (rsub c o) kz) in *.
  assert (shear ROps s0 s1 s2 mag kx ky kz (rsub a o) = (A0, A1, za)) as EA by reflexivity. assert (shear ROps s0 s1 s2 mag kx ky kz (rsub b o) = (B0, B1, zb)) as EB by reflexivity.
  assert (shear ROps s0 s1 s2 mag kx ky kz (rsub c o) = (C0, C1, zc)) as EC by reflexivity. rewrite EA, EB, EC in E. cbn [fst snd] in E.
  assert (s2 <> 0) as Hs2 by (unfold s2; apply Rmult_integral_contrapositive_currified; [lra|by apply Rinv_neq_0_compat]).
  assert (forall v, s2 * pick (rsub v o) kz = 0 -> pick v kz = pick o kz) as Hzv.
  { intros v Hv. apply Rmult_integral in Hv as [?|Hv]; [done|]. destruct v as [[vx vy] vz], o as [[ox oy] oz]. unfold rsub in Hv. cbn [fst snd] in Hv. destruct kz as [|[|?]]; cbn [pick] in *; lra. }
  assert (~ (A0 = 0 /\ A1 = 0 /\ B0 = 0 /\ B1 = 0 /\ C0 = 0 /\ C1 = 0)) as Hnz.
  { intros (a0&a1&b0&b1&c0&c1). apply HC. unfold A0, A1, B0, B1, C0, C1 in *. clear - a0 a1 b0 b1 c0 c1 Hm Hax.
    assert (forall x, x * mag = 0 -> x = 0) as HQ by (intros x Hx; apply Rmult_integral in Hx; tauto). apply HQ in a0, a1, b0, b1, c0, c1. clearbody s0 s1.
    destruct o as [[ox oy] oz], a as [[ax ay] az], b as [[bx by_] bz], c as [[cx cy] cz]. unfold rsub, rcross in *. cbn [fst snd] in *.
    destruct Hax as [H|[H|[H|[H|[H|H]]]]]; injection H as Ex Ey Ez; rewrite Ex, Ey, Ez in *; cbn [pick] in *;
      repeat match goal with H : ?x - ?y - ?z = 0 |- _ => assert (x = y + z) by lra; clear H; subst x end; (apply f_equal2; [apply f_equal2|]); ring. }
  clearbody A0 A1 B0 B1 C0 C1.
  set (u := C0 * B1 - C1 * B0) in *. set (v := A0 * C1 - A1 * C0) in *. set (w := B0 * A1 - B1 * A0) in *.
  assert (u + v + w = 0) as HD by (rewrite Hdet; unfold Rdiv; ring).
  destruct (Req_EM_T u 0) as [Eu|Hu].
  2: { left. assert (cross_code 0 u v w = true) as Hcc.
    { unfold cross_code. apply andb_true_iff. rewrite !orb_true_iff, !Rltb_lt. destruct (Rtotal_order u 0) as [|[|]], (Rtotal_order v 0) as [|[|]], (Rtotal_order w 0) as [|[|]]; try lra; split; first [left; left; lra|left; right; lra|right; lra]. }
    rewrite Hcc in E. split; [done|]. intros t (l&m&n&H1&H2&H3&S&Et). apply HW in Et as (E0&E1&_); [|done]. apply Hu. 
    transitivity ((u + v + w) * l); [|rewrite HD; ring]. transitivity ((u + v + w) * l + (l * A0 + m * B0 + n * C0) * (B1 - C1) + (l * A1 + m * B1 + n * C1) * (C0 - B0)); [|rewrite E0, E1; ring].
    assert (l = 1 - m - n) as -> by lra. unfold u, v, w. ring. }
  destruct (Req_EM_T v 0) as [Ev|Hv].
  2: { left. assert (cross_code 0 u v w = true) as Hcc.
    { unfold cross_code. apply andb_true_iff. rewrite !orb_true_iff, !Rltb_lt. destruct (Rtotal_order u 0) as [|[|]], (Rtotal_order v 0) as [|[|]], (Rtotal_order w 0) as [|[|]]; try lra; split; first [left; left; lra|left; right; lra|right; lra]. }
    rewrite Hcc in E. split; [done|]. intros t (l&m&n&H1&H2&H3&S&Et). apply HW in Et as (E0&E1&_); [|done]. apply Hv. 
    transitivity ((u + v + w) * m); [|rewrite HD; ring]. transitivity ((u + v + w) * m + (l * A0 + m * B0 + n * C0) * (C1 - A1) + (l * A1 + m * B1 + n * C1) * (A0 - C0)); [|rewrite E0, E1; ring].
    assert (m = 1 - l - n) as -> by lra. unfold u, v, w. ring. }
  assert (w = 0) as Ew by lra.
  assert (cross_code 0 u v w = false) as Hcc.
  { unfold cross_code. rewrite Eu, Ev, Ew. assert (Rltb 0 (- 0) = false) as -> by (apply Rltb_ge; lra). done. }
  rewrite Hcc in E. assert (Rltb (u + v + w) (- 0) || Rltb 0 (u + v + w) = false) as Hdd by (apply orb_false_iff; rewrite !Rltb_ge; lra). rewrite Hdd in E.
  assert (exists w0 w1 la lb lc, ~ (w0 = 0 /\ w1 = 0) /\ A0 = la * w0 /\ A1 = la * w1 /\ B0 = lb * w0 /\ B1 = lb * w1 /\ C0 = lc * w0 /\ C1 = lc * w1) as (w0&w1&la&lb&lc&Hw&F1&F2&F3&F4&F5&F6).
  { assert (forall p0 p1 q0 q1, ~ (p0 = 0 /\ p1 = 0) -> q0 * p1 - q1 * p0 = 0 -> let k := (q0 * p0 + q1 * p1) / (p0 * p0 + p1 * p1) in q0 = k * p0 /\ q1 = k * p1) as HP.
    { intros p0 p1 q0 q1 Hp Hq k. assert (0 < p0 * p0 + p1 * p1) as Hpp.
      { pose proof (Rle_0_sqr p0) as S0. pose proof (Rle_0_sqr p1) as S1. destruct (Req_EM_T p0 0) as [H0|H0]; [destruct (Req_EM_T p1 0) as [H1|H1]; [by destruct Hp|apply Rsqr_pos_lt in H1]|apply Rsqr_pos_lt in H0]; unfold Rsqr in *; lra. }
      unfold k. split; apply (Rmult_eq_reg_r (p0 * p0 + p1 * p1)); try lra; [transitivity (q0 * p0 * p0 + q1 * p1 * p0 + (q0 * p1 - q1 * p0) * p1); [ring|]|transitivity (q0 * p0 * p1 + q1 * p1 * p1 - (q0 * p1 - q1 * p0) * p0); [ring|]]; rewrite Hq; field; lra. }
    unfold u, v, w in Eu, Ev, Ew. destruct (Req_EM_T A0 0) as [a0|Ha0]; [destruct (Req_EM_T A1 0) as [a1|Ha1]|].
    - destruct (Req_EM_T B0 0) as [b0|Hb0]; [destruct (Req_EM_T B1 0) as [b1|Hb1]|].
      + assert (~ (C0 = 0 /\ C1 = 0)) as Hc by tauto. exists C0, C1, 0, 0, 1. split; [done|]. split_and!; lra.
      + assert (~ (B0 = 0 /\ B1 = 0)) as Hb by tauto. destruct (HP B0 B1 C0 C1 Hb ltac:(lra)) as [G1 G2]. eexists B0, B1, 0, 1, _. split; [done|]. split_and!; try lra; [exact G1|exact G2].
      + assert (~ (B0 = 0 /\ B1 = 0)) as Hb by tauto. destruct (HP B0 B1 C0 C1 Hb ltac:(lra)) as [G1 G2]. eexists B0, B1, 0, 1, _. split; [done|]. split_and!; try lra; [exact G1|exact G2].
    - assert (~ (A0 = 0 /\ A1 = 0)) as Ha by tauto. destruct (HP A0 A1 C0 C1 Ha ltac:(lra)) as [G1 G2]. destruct (HP A0 A1 B0 B1 Ha ltac:(lra)) as [G3 G4]. eexists A0, A1, 1, _, _. split; [done|]. split; [lra|]. split; [lra|]. split; [exact G3|]. split; [exact G4|]. split; [exact G1|exact G2].
    - assert (~ (A0 = 0 /\ A1 = 0)) as Ha by tauto. destruct (HP A0 A1 C0 C1 Ha ltac:(lra)) as [G1 G2]. destruct (HP A0 A1 B0 B1 Ha ltac:(lra)) as [G3 G4]. eexists A0, A1, 1, _, _. split; [done|]. split; [lra|]. split; [lra|]. split; [exact G3|]. split; [exact G4|]. split; [exact G1|exact G2]. }
  destruct (rotate_line w0 w1 Hw) as (k & Hk0 & HR).
  assert (forall t, InTri a b c (rpoint o t d) <-> On (k * la, za) (k * lb, zb) (k * lc, zc) t) as HT.
  { intros t. unfold On. cbn [fst snd]. split.
    - intros (l&m&n&H1&H2&H3&S&Et). apply HW in Et as (E0&E1&E2); [|done]. exists l, m, n. split_and!; try done. rewrite F1, F3, F5 in E0. rewrite F2, F4, F6 in E1.
      assert (l * la + m * lb + n * lc = 0) as Z0; [|transitivity (k * (l * la + m * lb + n * lc)); [ring|rewrite Z0; ring]].
      assert ((l * la + m * lb + n * lc) * w0 = 0) as Z1 by lra. assert ((l * la + m * lb + n * lc) * w1 = 0) as Z2 by lra.
      apply Rmult_integral in Z1 as [?|Z1]; [done|]. apply Rmult_integral in Z2 as [?|Z2]; [done|]. by destruct Hw.
    - intros (l&m&n&H1&H2&H3&S&E0&E2). exists l, m, n. split_and!; try done. apply HW; [done|]. 
      assert (l * la + m * lb + n * lc = 0) as Z0 by (apply (Rmult_eq_reg_l k); lra).
      split; [rewrite F1, F3, F5; transitivity ((l * la + m * lb + n * lc) * w0); [ring|rewrite Z0; ring]|]. split; [rewrite F2, F4, F6; transitivity ((l * la + m * lb + n * lc) * w1); [ring|rewrite Z0; ring]|]. exact E2. }
  rewrite E. destruct Hvert as (V1 & V2 & V3).
  destruct (coplanar_plane inf (A0, A1, za) (B0, B1, zb) (C0, C1, zc) (k * la, za) (k * lb, zb) (k * lc, zc)) as [[H1 H2]|(lo&hi&H1&H2&H3)].
  - rewrite F1, F2. apply HR.
  - rewrite F3, F4. apply HR.
  - rewrite F5, F6. apply HR.
  - cbn [fst snd]. intros (G1&G2&G3). apply Hnz. assert (forall x, k * x = 0 -> x = 0) as HQ by (intros x Hx; apply Rmult_integral in Hx; tauto). apply HQ in G1, G2, G3. subst la lb lc. lra.
  - cbn [fst snd]. intros [G1 G2]. apply V1. split; by apply Hzv.
  - cbn [fst snd]. intros [G1 G2]. apply V2. split; by apply Hzv.
  - cbn [fst snd]. intros [G1 G2]. apply V3. split; by apply Hzv.
  - intros t Ht. apply Hinf. by apply HT.
  - left. split; [done|]. intros t Ht. apply (H2 t). by apply HT.
  - right. exists lo, hi. split; [done|]. split; [done|]. intros t. rewrite HT. apply H3.
Qed.

(** Coplanar or not: the test for a hit in front of the origin. *)
Theorem C60_hit_partial : forall inf o d a b c, d <> (0, 0, 0) -> rcross (rsub b a) (rsub c a) <> (0, 0, 0) ->
  (forall t, InTri a b c (rpoint o t d) -> - inf < t < inf) ->
  (rdot d (rcross (rsub b a) (rsub c a)) = 0 -> forall k, (k < 3)%nat -> (forall j, (j < 3)%nat -> Rabs (pick d j) <= Rabs (pick d k)) ->
     ~ (pick a k = pick o k /\ pick b k = pick o k) /\ ~ (pick b k = pick o k /\ pick c k = pick o k) /\ ~ (pick c k = pick o k /\ pick a k = pick o k)) ->
  (ray_meets_triangle ROps inf 0 0 o d a b c = true <-> exists t, 0 <= t /\ InTri a b c (rpoint o t d)).
Proof.
  intros inf o d a b c Hd HC Hinf Hk. unfold ray_meets_triangle. destruct (Req_EM_T (rdot d (rcross (rsub b a) (rsub c a))) 0) as [E|HE].
  - destruct (C60_coplanar_partial inf o d a b c Hd HC E Hinf (Hk E)) as [[-> HN]|(lo&hi&Hle&->&HT)].
    + split; [done|]. intros (t&_&Ht). by destruct (HN t).
    + unfold report. destruct (Rle_dec (lo * hi) 0) as [H|H].
      * split; [|intros _; real_ops; apply andb_true_iff; split; [done|]; apply Rleb_le; lra]. intros _. exists hi. assert (0 <= hi) by nra. split; [done|]. apply HT. lra.
      * destruct (Rlt_dec lo 0) as [Hl|Hl]; real_ops; rewrite andb_true_l, Rleb_le.
        -- split; [lra|]. intros (t&H1&H2). apply HT in H2. exfalso. nra.
        -- split; [|intros _; lra]. intros _. exists hi. split; [lra|]. apply HT. lra.
  - destruct (C60_ray_triangle_exact inf 0 o d a b c HE) as [(t&->&HT)|[-> HN]].
    + real_ops. rewrite andb_true_l, Rleb_le. split; [intros H; exists t; split; [done|]; by apply HT|]. intros (t'&H1&H2). apply HT in H2. by subst.
    + split; [done|]. intros (t&_&Ht). by destruct (HN t).
Qed.
Print Assumptions C60_coplanar_partial.
Print Assumptions C60_hit_partial.

(** A ray along the x axis and a triangle of the plane z = 0: the hypotheses hold and the code reports the two crossings 2 and 7/2. *)
Example C60_coplanar_example : let o : R3 := (0, 0, 0) in let d : R3 := (1, 0, 0) in let a : R3 := (1, -1, 0) in let b : R3 := (3, 1, 0) in let c : R3 := (4, -1, 0) in
  d <> (0, 0, 0) /\ rcross (rsub b a) (rsub c a) <> (0, 0, 0) /\ rdot d (rcross (rsub b a) (rsub c a)) = 0 /\ (forall t, InTri a b c (rpoint o t d) -> - 100 < t < 100) /\
  (forall k, (k < 3)%nat -> (forall j, (j < 3)%nat -> Rabs (pick d j) <= Rabs (pick d k)) ->
     ~ (pick a k = pick o k /\ pick b k = pick o k) /\ ~ (pick b k = pick o k /\ pick c k = pick o k) /\ ~ (pick c k = pick o k /\ pick a k = pick o k)) /\
  ray_triangle ROps 100 0 0 o d a b c = (true, 2, 7 / 2).
Proof.
  intros o d a b c.
  assert (d <> (0, 0, 0)) as H1 by (unfold d; intros E; injection E as E; lra).
  assert (rcross (rsub b a) (rsub c a) <> (0, 0, 0)) as H2 by (unfold rcross, rsub, a, b, c; cbn [fst snd]; intros E; injection E as E; lra).
  assert (rdot d (rcross (rsub b a) (rsub c a)) = 0) as H3 by (unfold rdot, rcross, rsub, a, b, c, d; cbn [fst snd]; lra).
  assert (forall t, InTri a b c (rpoint o t d) <-> 2 <= t <= 7 / 2) as HT.
  { intros t. unfold InTri, rpoint, o, d, a, b, c. cbn [fst snd]. split.
    - intros (l&m&n&P1&P2&P3&S&E). injection E as E1 E2 E3. lra.
    - intros [Q1 Q2]. exists ((7 / 2 - t) / 3), (1 / 2), (1 / 2 - (7 / 2 - t) / 3). split; [lra|]. split; [lra|]. split; [lra|]. split; [lra|]. apply f_equal2; [apply f_equal2|]; lra. }
  assert (forall t, InTri a b c (rpoint o t d) -> - 100 < t < 100) as H4 by (intros t Ht; apply (proj1 (HT _)) in Ht; lra).
  assert (forall k, (k < 3)%nat -> (forall j, (j < 3)%nat -> Rabs (pick d j) <= Rabs (pick d k)) ->
     ~ (pick a k = pick o k /\ pick b k = pick o k) /\ ~ (pick b k = pick o k /\ pick c k = pick o k) /\ ~ (pick c k = pick o k /\ pick a k = pick o k)) as H5.
  { intros k Hk HM. destruct k as [|[|[|k]]]; [|exfalso|exfalso|lia].
    - unfold a, b, c, o. cbn [pick fst snd]. lra.
    - specialize (HM 0%nat ltac:(lia)). unfold d in HM. cbn [pick fst snd] in HM. rewrite Rabs_R0, Rabs_R1 in HM. lra.
    - specialize (HM 0%nat ltac:(lia)). unfold d in HM. cbn [pick fst snd] in HM. rewrite Rabs_R0, Rabs_R1 in HM. lra. }
  split; [exact H1|]. split; [exact H2|]. split; [exact H3|]. split; [exact H4|]. split; [exact H5|].
  destruct (C60_coplanar_partial 100 o d a b c H1 H2 H3 H4 H5) as [[_ HN]|(lo&hi&Hle&->&HR)].
  - exfalso. apply (HN 2). apply HT. lra.
  - assert (2 <= lo) by (apply HT, HR; lra). assert (hi <= 7 / 2) by (apply HT, HR; lra). assert (lo <= 2) by (apply HR, HT; lra). assert (7 / 2 <= hi) by (apply HR, HT; lra).
    assert (lo = 2) as -> by lra. assert (hi = 7 / 2) as -> by lra. unfold report. destruct (Rle_dec _ _); [lra|]. destruct (Rlt_dec _ _); [lra|done].
Qed.
