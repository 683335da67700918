(** C43, C51, C60 over the real numbers: ray against sphere, ray and segment against a triangle they are not coplanar with. *)
From Coq Require Import Reals Lra Psatz.
From Verif Require Import Base GeomOps BoxModel ShapeModel RayModel.
Local Open Scope R_scope.

(** Exact arithmetic with square roots. *)
Definition Rltb (x y : R) : bool := if Rlt_dec x y then true else false.
Definition Rleb (x y : R) : bool := if Rle_dec x y then true else false.
Definition Reqb (x y : R) : bool := if Req_EM_T x y then true else false.
Definition ROps : Ops R := {| o_zero := 0; o_one := 1; o_add := Rplus; o_sub := Rminus; o_mul := Rmult; o_div := Rdiv;
  o_opp := Ropp; o_sqrt := R_sqrt.sqrt; o_ltb := Rltb; o_leb := Rleb; o_eqb := Reqb |}.
Ltac real_ops := cbn [o_zero o_one o_add o_sub o_mul o_div o_opp o_sqrt o_ltb o_leb o_eqb ROps fst snd] in *.
Lemma Rltb_lt x y : Rltb x y = true <-> x < y.
Proof. unfold Rltb. by destruct (Rlt_dec x y). Qed.
Lemma Rltb_ge x y : Rltb x y = false <-> y <= x.
Proof. unfold Rltb. destruct (Rlt_dec x y); split; intros; (done || lra). Qed.
Lemma Rleb_le x y : Rleb x y = true <-> x <= y.
Proof. unfold Rleb. by destruct (Rle_dec x y). Qed.
Lemma Reqb_eq x y : Reqb x y = true <-> x = y.
Proof. unfold Reqb. by destruct (Req_EM_T x y). Qed.
Lemma Reqb_ne x y : Reqb x y = false <-> x <> y.
Proof. unfold Reqb. by destruct (Req_EM_T x y). Qed.

(** ** Shapes, independently of the model *)
Notation R3 := (R * R * R)%type.
Definition rpoint (o : R3) (t : R) (d : R3) : R3 := (o.1.1 + t * d.1.1, o.1.2 + t * d.1.2, o.2 + t * d.2).
Definition rdot (a b : R3) : R := a.1.1 * b.1.1 + a.1.2 * b.1.2 + a.2 * b.2.
Definition rsub (a b : R3) : R3 := (a.1.1 - b.1.1, a.1.2 - b.1.2, a.2 - b.2).
Definition rcross (a b : R3) : R3 := (a.1.2 * b.2 - a.2 * b.1.2, a.2 * b.1.1 - a.1.1 * b.2, a.1.1 * b.1.2 - a.1.2 * b.1.1).
Definition InBall (c : R3) (r : R) (p : R3) : Prop := R_sqrt.sqrt (rdot (rsub p c) (rsub p c)) <= r.
Definition InTri (a b c p : R3) : Prop := exists l m n, 0 <= l /\ 0 <= m /\ 0 <= n /\ l + m + n = 1 /\
  p = (l * a.1.1 + m * b.1.1 + n * c.1.1, l * a.1.2 + m * b.1.2 + n * c.1.2, l * a.2 + m * b.2 + n * c.2).
Definition InSeg (p q x : R3) : Prop := exists t, 0 <= t /\ t <= 1 /\ x = rpoint p t (rsub q p).

(** ** C43 *)
Lemma in_ball c r p : 0 <= r -> InBall c r p <-> rdot (rsub p c) (rsub p c) <= r * r.
Proof.
  intros Hr. unfold InBall. assert (0 <= rdot (rsub p c) (rsub p c)) as H0 by (unfold rdot; nra). split; intros H.
  - rewrite <- (sqrt_sqrt _ H0). pose proof (sqrt_pos (rdot (rsub p c) (rsub p c))). nra.
  - rewrite <- (sqrt_square r Hr). by apply sqrt_le_1_alt.
Qed.
(** The roots, and that no division by zero occurs on the way to them. *)
Lemma quadratic_roots b c : match solve_quadratic ROps 1 b c with
  | Some (x1, x2) => x1 + x2 = - b /\ x1 * x2 = c
  | None => b * b - 4 * c < 0
  end.
Proof.
  unfold solve_quadratic, four, two. real_ops. set (D := b * b - (1 + 1) * (1 + 1) * 1 * c). assert (D = b * b - 4 * c) as ED by (unfold D; ring).
  destruct (Rltb D 0) eqn:E1; rewrite ?Rltb_lt, ?Rltb_ge in *; [lra|]. destruct (Reqb D 0) eqn:E2; rewrite ?Reqb_eq, ?Reqb_ne in *.
  - split; [field|]. assert (c = b * b / 4) as -> by lra. field.
  - pose proof (sqrt_lt_R0 D ltac:(lra)) as Hs. pose proof (sqrt_sqrt D E1) as Hss. set (s := R_sqrt.sqrt D) in *. clearbody s.
    destruct (Rltb 0 b) eqn:E3; rewrite ?Rltb_lt, ?Rltb_ge in *.
    + assert ((- b - s) / (1 + 1) <> 0) as Hq by lra. assert (c = (b * b - s * s) / 4) as -> by lra. split; field; lra.
    + assert ((- b + s) / (1 + 1) <> 0) as Hq by lra. assert (c = (b * b - s * s) / 4) as -> by lra. split; field; lra.
Qed.
Theorem C43_no_division_by_zero : forall b c, 0 < b * b - 4 * c ->
  (if Rltb 0 b then (- b - R_sqrt.sqrt (b * b - 4 * c)) / 2 else (- b + R_sqrt.sqrt (b * b - 4 * c)) / 2) <> 0.
Proof. intros b c H. pose proof (sqrt_lt_R0 _ H). destruct (Rltb 0 b) eqn:E; rewrite ?Rltb_lt, ?Rltb_ge in *; lra. Qed.
(** The interval of parameters in the ball. *)
Theorem C43_ray_sphere : forall inf o d c r, rdot d d = 1 -> 0 <= r ->
  (exists lo hi, ray_sphere ROps inf o d c r = (true, lo, hi) /\ lo <= hi /\ forall t, InBall c r (rpoint o t d) <-> lo <= t <= hi) \/
  (ray_sphere ROps inf o d c r = (false, inf, - inf) /\ forall t, ~ InBall c r (rpoint o t d)).
Proof.
  intros inf [[ox oy] oz] [[dx dy] dz] [[cx cy] cz] r Hd Hr. unfold ray_sphere. real_ops.
  match goal with |- context [solve_quadratic ROps 1 ?x ?y] => set (b := x); set (k := y) end. unfold dot3, sub3, two in b, k. real_ops.
  assert (forall t, InBall (cx, cy, cz) r (rpoint (ox, oy, oz) t (dx, dy, dz)) <-> t * t + b * t + k <= 0) as HB.
  { intros t. rewrite in_ball by done. unfold rdot, rsub, rpoint, b, k in *. cbn [fst snd] in *.
    match goal with |- ?x <= _ <-> ?y <= 0 => assert (x - r * r = y + t * t * ((dx * dx + dy * dy + dz * dz) - 1)) as E by ring end. rewrite Hd in E. split; intros; lra. }
  pose proof (quadratic_roots b k) as HQ. destruct (solve_quadratic ROps 1 b k) as [[x1 x2]|].
  - left. destruct HQ as [HS HP]. assert (forall t, t * t + b * t + k = (t - x1) * (t - x2)) as HF by (intros; rewrite <- HP; assert (b = - (x1 + x2)) as -> by lra; ring).
    destruct (Rltb x2 x1) eqn:E; rewrite ?Rltb_lt, ?Rltb_ge in *.
    + exists x2, x1. split; [done|]. split; [lra|]. intros t. rewrite HB, HF. split; intros; [split; nra|nra].
    + exists x1, x2. split; [done|]. split; [lra|]. intros t. rewrite HB, HF. split; intros; [split; nra|nra].
  - right. split; [done|]. intros t Ht. apply HB in Ht. pose proof (Rle_0_sqr (2 * t + b)) as K. unfold Rsqr in K. lra.
Qed.
(** overlapDistance: the part of the ray inside the ball. *)
Theorem C43_overlap : forall inf o d c r, rdot d d = 1 -> 0 <= r ->
  (exists lo hi, overlap ROps inf (ray_sphere ROps inf o d c r) = (hi - lo, lo) /\ lo <= hi /\ forall t, 0 <= t /\ InBall c r (rpoint o t d) <-> lo <= t <= hi) \/
  (overlap ROps inf (ray_sphere ROps inf o d c r) = (0, inf) /\ forall t, 0 <= t -> ~ InBall c r (rpoint o t d)).
Proof.
  intros inf o d c r Hd Hr. destruct (C43_ray_sphere inf o d c r Hd Hr) as [(lo&hi&E&Hlh&HI)|[E HI]]; rewrite E; unfold overlap; real_ops.
  - assert (Rleb lo hi = true) as -> by (by apply Rleb_le). cbn [andb]. destruct (Rleb 0 hi) eqn:E0.
    + left. apply Rleb_le in E0. unfold kmax. real_ops. destruct (Rltb 0 lo) eqn:E1; rewrite ?Rltb_lt, ?Rltb_ge in *.
      * exists lo, hi. split; [done|]. split; [done|]. intros t. rewrite HI. lra.
      * exists 0, hi. split; [done|]. split; [done|]. intros t. rewrite HI. lra.
    + right. split; [done|]. intros t Ht Hb. apply HI in Hb. apply not_true_iff_false in E0. apply E0, Rleb_le. lra.
  - right. split; [done|]. intros t _. apply HI.
Qed.
Example C43_example : rdot (0, 0, 1) (0, 0, 1) = 1 /\ InBall (0, 0, 5) 2 (rpoint (0, 0, 0) 4 (0, 0, 1)) /\ ~ InBall (0, 0, 5) 2 (rpoint (0, 0, 0) 1 (0, 0, 1)).
Proof.
  split; [unfold rdot; simpl; ring|]. rewrite !in_ball by lra. unfold rdot, rsub, rpoint. simpl. split; [|intros H]; lra.
Qed.

(** ** C60: the triangle *)
(** In the plane of the sheared coordinates: the weights of the origin. *)
Lemma plane_weights A0 A1 B0 B1 C0 C1 : let u := C0 * B1 - C1 * B0 in let v := A0 * C1 - A1 * C0 in let w := B0 * A1 - B1 * A0 in
  u + v + w <> 0 -> (u / (u + v + w) * A0 + v / (u + v + w) * B0 + w / (u + v + w) * C0 = 0 /\ u / (u + v + w) * A1 + v / (u + v + w) * B1 + w / (u + v + w) * C1 = 0) /\
  forall l m n, l + m + n = 1 -> l * A0 + m * B0 + n * C0 = 0 -> l * A1 + m * B1 + n * C1 = 0 ->
    l = u / (u + v + w) /\ m = v / (u + v + w) /\ n = w / (u + v + w).
Proof.
  intros u v w H. split.
  - split; [assert (u * A0 + v * B0 + w * C0 = 0) as K by (unfold u, v, w; ring)|assert (u * A1 + v * B1 + w * C1 = 0) as K by (unfold u, v, w; ring)];
      (etransitivity; [|exact (f_equal (fun x => x / (u + v + w)) K)] || idtac).
    1: transitivity ((u * A0 + v * B0 + w * C0) / (u + v + w)); [field; done|rewrite K; field; done].
    1: transitivity ((u * A1 + v * B1 + w * C1) / (u + v + w)); [field; done|rewrite K; field; done].
  - intros l m n S E0 E1. set (D := u + v + w) in *.
    assert (D * l = u) as L1. { transitivity (D * l + (l * A0 + m * B0 + n * C0) * (B1 - C1) + (l * A1 + m * B1 + n * C1) * (C0 - B0)); [rewrite E0, E1; ring|]. assert (l = 1 - m - n) as -> by lra. unfold D, u, v, w. ring. }
    assert (D * m = v) as L2. { transitivity (D * m + (l * A0 + m * B0 + n * C0) * (C1 - A1) + (l * A1 + m * B1 + n * C1) * (A0 - C0)); [rewrite E0, E1; ring|]. assert (m = 1 - l - n) as -> by lra. unfold D, u, v, w. ring. }
    assert (D * n = w) as L3 by (unfold D in *; assert (n = 1 - l - m) as -> by lra; lra).
    split; [|split]; [rewrite <- L1|rewrite <- L2|rewrite <- L3]; field; done.
Qed.
(** The three axes in the order the code chose. *)
Definition Axes (kx ky kz : nat) : Prop := (kx, ky, kz) = (0, 1, 2)%nat \/ (kx, ky, kz) = (1, 2, 0)%nat \/ (kx, ky, kz) = (2, 0, 1)%nat \/
  (kx, ky, kz) = (1, 0, 2)%nat \/ (kx, ky, kz) = (2, 1, 0)%nat \/ (kx, ky, kz) = (0, 2, 1)%nat.
Lemma axes_eq kx ky kz (p q : R3) : Axes kx ky kz -> pick p kx = pick q kx -> pick p ky = pick q ky -> pick p kz = pick q kz -> p = q.
Proof. destruct p as [[??]?], q as [[??]?]. intros [H|[H|[H|[H|[H|H]]]]]; injection H as -> -> ->; simpl; by intros -> -> ->. Qed.
Lemma largest_nonzero d : d <> (0, 0, 0) -> pick d (largest_comp ROps d) <> 0.
Proof.
  destruct d as [[x y] z]. intros Hd. unfold largest_comp, kabs. real_ops.
  destruct (Rltb x 0) eqn:Ex, (Rltb y 0) eqn:Ey, (Rltb z 0) eqn:Ez; repeat match goal with |- context [Rltb ?a ?b] => destruct (Rltb a b) eqn:?; cbn [fst snd] end;
    rewrite ?Rltb_lt, ?Rltb_ge in *; cbn [pick]; intros ->; try lra; apply Hd; repeat f_equal; lra.
Qed.
Lemma largest_range d : (largest_comp ROps d < 3)%nat.
Proof.
  destruct d as [[x y] z]. unfold largest_comp. real_ops. destruct (Rltb (kabs ROps x) (kabs ROps y)); match goal with |- context [Rltb ?a ?b] => destruct (Rltb a b) end; lia.
Qed.
Lemma norm_nonneg v : 0 <= norm3 ROps v.
Proof. apply sqrt_pos. Qed.
Lemma norm_pos v : v <> (0, 0, 0) -> 0 < norm3 ROps v.
Proof.
  destruct v as [[x y] z]. intros H. unfold norm3, dot3. real_ops. apply sqrt_lt_R0.
  destruct (Req_dec x 0) as [->|Hx]; [destruct (Req_dec y 0) as [->|Hy]; [destruct (Req_dec z 0) as [->|Hz]; [done|]|]|].
  all: repeat match goal with H : ?a <> 0 |- _ => pose proof (Rsqr_pos_lt a H); unfold Rsqr in *; clear H end; nra.
Qed.

Section Sheared.
Variables (o d a b c : R3) (kx ky kz : nat) (mag : R).
Hypothesis Hax : Axes kx ky kz.
Hypothesis Hz : pick d kz <> 0.
Hypothesis Hmag : mag <> 0.
Let s2 := 1 / pick d kz.
Let s0 := pick d kx * s2.
Let s1 := pick d ky * s2.
Let A0 := (pick (rsub a o) kx - s0 * pick (rsub a o) kz) * mag.
Let A1 := (pick (rsub a o) ky - s1 * pick (rsub a o) kz) * mag.
Let B0 := (pick (rsub b o) kx - s0 * pick (rsub b o) kz) * mag.
Let B1 := (pick (rsub b o) ky - s1 * pick (rsub b o) kz) * mag.
Let C0 := (pick (rsub c o) kx - s0 * pick (rsub c o) kz) * mag.
Let C1 := (pick (rsub c o) ky - s1 * pick (rsub c o) kz) * mag.
Let u := C0 * B1 - C1 * B0.
Let v := A0 * C1 - A1 * C0.
Let w := B0 * A1 - B1 * A0.
Let t := (u * (s2 * pick (rsub a o) kz) + v * (s2 * pick (rsub b o) kz) + w * (s2 * pick (rsub c o) kz)) / (u + v + w).
Lemma sheared_det : exists sg, (sg = 1 \/ sg = -1) /\ u + v + w = sg * mag * mag * rdot d (rcross (rsub b a) (rsub c a)) / pick d kz.
Proof.
  unfold u, v, w, A0, A1, B0, B1, C0, C1, s0, s1, s2. clear -Hax Hz. destruct o as [[ox oy] oz], d as [[dx dy] dz], a as [[ax ay] az], b as [[bx by_] bz], c as [[cx cy] cz].
  unfold rdot, rcross, rsub. cbn [fst snd]. destruct Hax as [H|[H|[H|[H|[H|H]]]]]; injection H as -> -> ->; cbn [pick] in *.
  1-3: exists (-1); split; [by right|field; done].
  all: exists 1; split; [by left|field; done].
Qed.
Lemma sheared_weights l m n t' : l + m + n = 1 ->
  rpoint o t' d = (l * a.1.1 + m * b.1.1 + n * c.1.1, l * a.1.2 + m * b.1.2 + n * c.1.2, l * a.2 + m * b.2 + n * c.2) <->
  (l * A0 + m * B0 + n * C0 = 0 /\ l * A1 + m * B1 + n * C1 = 0 /\ t' = l * (s2 * pick (rsub a o) kz) + m * (s2 * pick (rsub b o) kz) + n * (s2 * pick (rsub c o) kz)).
Proof.
  intros S. assert (forall k, (k < 3)%nat -> pick (l * a.1.1 + m * b.1.1 + n * c.1.1, l * a.1.2 + m * b.1.2 + n * c.1.2, l * a.2 + m * b.2 + n * c.2) k =
    pick o k + (l * pick (rsub a o) k + m * pick (rsub b o) k + n * pick (rsub c o) k)) as HP.
  { intros k Hk. assert (l = 1 - m - n) as -> by lra. destruct o as [[ox oy] oz], a as [[ax ay] az], b as [[bx by_] bz], c as [[cx cy] cz].
    destruct k as [|[|[|k]]]; unfold rsub; cbn [pick fst snd]; try ring; lia. }
  assert (forall k, pick (rpoint o t' d) k = pick o k + t' * pick d k) as HR.
  { intros k. destruct o as [[ox oy] oz], d as [[dx dy] dz]. destruct k as [|[|k]]; reflexivity. }
  assert (kx < 3 /\ ky < 3 /\ kz < 3)%nat as (K1&K2&K3) by (destruct Hax as [H|[H|[H|[H|[H|H]]]]]; injection H as -> -> ->; lia).
  set (q := (l * a.1.1 + m * b.1.1 + n * c.1.1, l * a.1.2 + m * b.1.2 + n * c.1.2, l * a.2 + m * b.2 + n * c.2)) in *.
  pose proof (HP kx K1) as PX. pose proof (HP ky K2) as PY. pose proof (HP kz K3) as PZ.
  set (X := l * pick (rsub a o) kx + m * pick (rsub b o) kx + n * pick (rsub c o) kx) in *.
  set (Y := l * pick (rsub a o) ky + m * pick (rsub b o) ky + n * pick (rsub c o) ky) in *.
  set (Z := l * pick (rsub a o) kz + m * pick (rsub b o) kz + n * pick (rsub c o) kz) in *.
  assert (l * A0 + m * B0 + n * C0 = (X - s0 * Z) * mag) as E0 by (unfold A0, B0, C0, X, Z; ring).
  assert (l * A1 + m * B1 + n * C1 = (Y - s1 * Z) * mag) as E1 by (unfold A1, B1, C1, Y, Z; ring).
  assert (l * (s2 * pick (rsub a o) kz) + m * (s2 * pick (rsub b o) kz) + n * (s2 * pick (rsub c o) kz) = s2 * Z) as E2 by (unfold Z; ring).
  rewrite E0, E1, E2. clearbody X Y Z q. split.
  - intros E. rewrite <- E, HR in PX, PY, PZ. assert (X = t' * pick d kx) as -> by lra. assert (Y = t' * pick d ky) as -> by lra. assert (Z = t' * pick d kz) as -> by lra.
    unfold s0, s1, s2. split; [field; done|split; field; done].
  - intros (F0&F1&F2). apply (axes_eq kx ky kz); [done|rewrite HR, PX|rewrite HR, PY|rewrite HR, PZ].
    + assert (X - s0 * Z = 0) as G by (apply (Rmult_eq_reg_r mag); lra). assert (X = s0 * Z) as -> by lra. rewrite F2. unfold s0. ring.
    + assert (Y - s1 * Z = 0) as G by (apply (Rmult_eq_reg_r mag); lra). assert (Y = s1 * Z) as -> by lra. rewrite F2. unfold s1. ring.
    + rewrite F2. unfold s2. field. done.
Qed.
Lemma sheared_hit : u + v + w <> 0 -> forall t', InTri a b c (rpoint o t' d) <-> (t' = t /\ 0 <= u / (u + v + w) /\ 0 <= v / (u + v + w) /\ 0 <= w / (u + v + w)).
Proof.
  intros HD t'. destruct (plane_weights A0 A1 B0 B1 C0 C1 HD) as [[W0 W1] WU]. fold u v w in W0, W1, WU.
  assert (u / (u + v + w) + v / (u + v + w) + w / (u + v + w) = 1) as S1 by (field; done).
  assert (t = u / (u + v + w) * (s2 * pick (rsub a o) kz) + v / (u + v + w) * (s2 * pick (rsub b o) kz) + w / (u + v + w) * (s2 * pick (rsub c o) kz)) as Et by (unfold t; field; done).
  split.
  - intros (l&m&n&Hl&Hm&Hn&S&E). apply sheared_weights in E as (E0&E1&E2); [|done]. destruct (WU l m n S E0 E1) as (->&->&->). rewrite Et. done.
  - intros (->&Hl&Hm&Hn). exists (u / (u + v + w)), (v / (u + v + w)), (w / (u + v + w)). split; [done|]. split; [done|]. split; [done|]. split; [done|].
    apply sheared_weights; [done|]. split; [done|]. split; [done|]. exact Et.
Qed.
End Sheared.
Definition cross_code (eps u v w : R) : bool :=
  (Rltb u (- eps) || Rltb v (- eps) || Rltb w (- eps)) && (Rltb eps u || Rltb eps v || Rltb eps w).
Definition spread (o a b c : R3) : R := R_sqrt.sqrt (rdot (rsub a o) (rsub a o)) + R_sqrt.sqrt (rdot (rsub b o) (rsub b o)) + R_sqrt.sqrt (rdot (rsub c o) (rsub c o)).
(** What the code computes, case by case. *)
Lemma ray_triangle_cases inf eps1 eps2 o d a b c : rdot d (rcross (rsub b a) (rsub c a)) <> 0 ->
  exists sg u v w t kz, (sg = 1 \/ sg = -1) /\ (kz < 3)%nat /\ pick d kz <> 0 /\ 0 < spread o a b c /\
    u + v + w = sg * (3 / spread o a b c) * (3 / spread o a b c) * rdot d (rcross (rsub b a) (rsub c a)) / pick d kz /\
    (u + v + w <> 0 -> forall t', InTri a b c (rpoint o t' d) <-> (t' = t /\ 0 <= u / (u + v + w) /\ 0 <= v / (u + v + w) /\ 0 <= w / (u + v + w))) /\
    (cross_code eps1 u v w = true -> ray_triangle ROps inf eps1 eps2 o d a b c = (false, inf, - inf)) /\
    (cross_code eps1 u v w = false -> Rltb (u + v + w) (- eps1) || Rltb eps1 (u + v + w) = true -> ray_triangle ROps inf eps1 eps2 o d a b c = (true, t, t)).
Proof.
  intros HD. assert (d <> (0, 0, 0)) as Hd0 by (intros ->; apply HD; unfold rdot; cbn [fst snd]; ring).
  pose proof (largest_nonzero d Hd0) as Hz. pose proof (largest_range d) as Hr.
  assert (forall p q, norm3 ROps (sub3 ROps p q) = R_sqrt.sqrt (rdot (rsub p q) (rsub p q))) as HN.
  { intros [[px py] pz] [[qx qy] qz]. unfold norm3, dot3, sub3, rdot, rsub. real_ops. f_equal. ring. }
  assert (0 < spread o a b c) as HS.
  { unfold spread. rewrite <- !HN. pose proof (norm_nonneg (sub3 ROps a o)). pose proof (norm_nonneg (sub3 ROps b o)). pose proof (norm_nonneg (sub3 ROps c o)).
    assert (sub3 ROps a o = (0, 0, 0) -> sub3 ROps b o = (0, 0, 0) -> sub3 ROps c o = (0, 0, 0) -> False) as Hne.
    { intros Ea Eb Ec. apply HD. destruct o as [[ox oy] oz], d as [[dx dy] dz], a as [[ax ay] az], b as [[bx by_] bz], c as [[cx cy] cz]. unfold sub3 in *. real_ops.
      injection Ea as ? ? ?. injection Eb as ? ? ?. injection Ec as ? ? ?. unfold rdot, rcross, rsub. cbn [fst snd].
      assert (bx = ax) as -> by lra. assert (by_ = ay) as -> by lra. assert (bz = az) as -> by lra. ring. }
    assert (forall v : R3, v = (0, 0, 0) \/ v <> (0, 0, 0)) as Hdec.
    { intros [[x y] z]. destruct (Req_dec x 0) as [->|]; [|right; congruence]. destruct (Req_dec y 0) as [->|]; [|right; congruence]. destruct (Req_dec z 0) as [->|]; [by left|right; congruence]. }
    destruct (Hdec (sub3 ROps a o)) as [Ea|Ea]; [|apply norm_pos in Ea; lra]. destruct (Hdec (sub3 ROps b o)) as [Eb|Eb]; [|apply norm_pos in Eb; lra].
    destruct (Hdec (sub3 ROps c o)) as [Ec|Ec]; [|apply norm_pos in Ec; lra]. by destruct Hne. }
  assert (3 / spread o a b c <> 0) as Hm. { apply Rmult_integral_contrapositive_currified; [lra|]. apply Rinv_neq_0_compat. lra. }
  set (kz := largest_comp ROps d) in *.
  destruct (if Rltb (pick d kz) 0 then ((kz + 2) mod 3, (kz + 1) mod 3)%nat else ((kz + 1) mod 3, (kz + 2) mod 3)%nat) as [kx ky] eqn:Ek.
  assert (Axes kx ky kz) as Hax.
  { clear -Ek Hr. clearbody kz. unfold Axes. destruct kz as [|[|[|kz]]]; [| | |exfalso; apply Nat.lt_irrefl with 3%nat; eapply Nat.le_lt_trans; [|exact Hr]; do 3 apply le_n_S; apply Nat.le_0_l]; cbn in Ek; destruct (Rltb _ 0); injection Ek as <- <-; tauto. }
  destruct (sheared_det o d a b c kx ky kz (3 / spread o a b c) Hax Hz) as (sg&Hsg&Hdet).
  pose proof (sheared_hit o d a b c kx ky kz (3 / spread o a b c) Hax Hz Hm) as Hhit. cbv zeta in Hhit.
  match type of Hdet with ?u + ?v + ?w = _ => set (u0 := u) in *; set (v0 := v) in *; set (w0 := w) in * end.
  match type of Hhit with _ -> forall t', _ <-> (t' = ?t /\ _) => set (t0 := t) in * end.
  exists sg, u0, v0, w0, t0, kz. split; [done|]. split; [done|]. split; [done|]. split; [done|]. split; [done|]. split; [done|].
  assert (forall p, sub3 ROps p o = rsub p o) as Hsub by (intros [[px py] pz]; destruct o as [[ox oy] oz]; reflexivity).
  assert (ray_triangle ROps inf eps1 eps2 o d a b c = if cross_code eps1 u0 v0 w0 then (false, inf, - inf) else
    if Rltb (u0 + v0 + w0) (- eps1) || Rltb eps1 (u0 + v0 + w0) then (true, t0, t0) else
    coplanar ROps inf eps2 (shear ROps (pick d kx * (1 / pick d kz)) (pick d ky * (1 / pick d kz)) (1 / pick d kz) (3 / spread o a b c) kx ky kz (rsub a o))
     (shear ROps (pick d kx * (1 / pick d kz)) (pick d ky * (1 / pick d kz)) (1 / pick d kz) (3 / spread o a b c) kx ky kz (rsub b o))
     (shear ROps (pick d kx * (1 / pick d kz)) (pick d ky * (1 / pick d kz)) (1 / pick d kz) (3 / spread o a b c) kx ky kz (rsub c o))) as E.
  { unfold ray_triangle. real_ops. fold kz. change ((kz + 2) mod 3)%nat with (Nat.modulo (kz + 2) 3) in *. rewrite Ek. cbv zeta. 
    rewrite !HN, !Hsub. fold (spread o a b c). replace (1 + 1 + 1) with 3 by ring. unfold shear at 1 2 3. real_ops. unfold cross_code.
    reflexivity. }
  rewrite E. split; intros ->; [done|]. intros ->. done.
Qed.
(** Exact, with zero tolerance. *)
Theorem C60_ray_triangle_exact : forall inf eps2 o d a b c, rdot d (rcross (rsub b a) (rsub c a)) <> 0 ->
  (exists t, ray_triangle ROps inf 0 eps2 o d a b c = (true, t, t) /\ forall t', InTri a b c (rpoint o t' d) <-> t' = t) \/
  (ray_triangle ROps inf 0 eps2 o d a b c = (false, inf, - inf) /\ forall t', ~ InTri a b c (rpoint o t' d)).
Proof.
  intros inf eps2 o d a b c HD. destruct (ray_triangle_cases inf 0 eps2 o d a b c HD) as (sg&u&v&w&t&kz&Hsg&Hk&Hz&HS&Hdet&Hhit&Hrej&Hacc).
  assert (u + v + w <> 0) as Hn.
  { rewrite Hdet. assert (3 / spread o a b c <> 0) as Hm by (apply Rmult_integral_contrapositive_currified; [lra|]; apply Rinv_neq_0_compat; lra).
    set (q := 3 / spread o a b c) in *. clearbody q. apply Rmult_integral_contrapositive_currified; [|by apply Rinv_neq_0_compat].
    repeat apply Rmult_integral_contrapositive_currified; try done.
    all: destruct Hsg; lra. }
  specialize (Hhit Hn). assert (forall x, 0 <= x / (u + v + w) <-> 0 <= x * (u + v + w)) as Hq.
  { intros x. assert (0 < (u + v + w) * (u + v + w)) by (pose proof (Rsqr_pos_lt _ Hn); done). assert (x * (u + v + w) = x / (u + v + w) * ((u + v + w) * (u + v + w))) as -> by (field; done). split; intros; [nra|]. 
    destruct (Rle_lt_dec 0 (x / (u + v + w))); [done|nra]. }
  destruct (cross_code 0 u v w) eqn:Ec.
  - right. split; [by apply Hrej|]. intros t' Ht. apply Hhit in Ht as (->&H1&H2&H3). apply Hq in H1, H2, H3. unfold cross_code in Ec.
    rewrite andb_true_iff, !orb_true_iff, !Rltb_lt in Ec. destruct Ec as [[[?|?]|?] [[?|?]|?]]; nra.
  - left. exists t. split.
    + apply Hacc; [done|]. rewrite orb_true_iff, !Rltb_lt. destruct (Rtotal_order (u + v + w) 0) as [?|[?|?]]; [left; lra|done|right; lra].
    + intros t'. rewrite Hhit. split; [tauto|]. intros ->. split; [done|]. rewrite !Hq. unfold cross_code in Ec. rewrite andb_false_iff, !orb_false_iff, !Rltb_ge in Ec.
      destruct Ec as [[[? ?] ?]|[[? ?] ?]]; repeat split; nra.
Qed.
(** With the tolerance of the code: a hit is reported, with its parameter, as long as the triangle is seen under a large
    enough angle. *)
Theorem C60_no_false_negative : forall inf eps1 eps2 o d a b c t, 0 <= eps1 -> InTri a b c (rpoint o t d) ->
  eps1 * Rmax (Rmax (Rabs d.1.1) (Rabs d.1.2)) (Rabs d.2) * (spread o a b c * spread o a b c) < 9 * Rabs (rdot d (rcross (rsub b a) (rsub c a))) ->
  ray_triangle ROps inf eps1 eps2 o d a b c = (true, t, t).
Proof.
  intros inf eps1 eps2 o d a b c t He Hin Hbig. set (M := Rmax _ _) in *.
  assert (forall k, Rabs (pick d k) <= M) as HM.
  { intros k. destruct d as [[x y] z]. unfold M. cbn [fst snd]. destruct k as [|[|k]]; cbn [pick]; [eapply Rle_trans; [apply Rmax_l|apply Rmax_l]|eapply Rle_trans; [apply Rmax_r|apply Rmax_l]|apply Rmax_r]. }
  assert (0 <= M) as HM0 by (pose proof (HM 0%nat); pose proof (Rabs_pos (pick d 0)); lra).
  assert (rdot d (rcross (rsub b a) (rsub c a)) <> 0) as HD.
  { intros E. rewrite E, Rabs_R0 in Hbig. assert (0 <= eps1 * M) by nra. assert (0 <= spread o a b c * spread o a b c) by nra. nra. }
  destruct (ray_triangle_cases inf eps1 eps2 o d a b c HD) as (sg&u&v&w&t0&kz&Hsg&Hk&Hz&HS&Hdet&Hhit&Hrej&Hacc).
  assert (eps1 < Rabs (u + v + w)) as HA.
  { rewrite Hdet. unfold Rdiv. rewrite !Rabs_mult, !Rabs_inv. rewrite (Rabs_right (spread o a b c)) by lra. rewrite (Rabs_right 3) by lra.
    assert (Rabs sg = 1) as -> by (destruct Hsg as [-> | ->]; unfold Rabs; destruct (Rcase_abs _); lra).
    set (S := spread o a b c) in *. set (D := Rabs (rdot _ _)) in *. assert (0 < Rabs (pick d kz)) as HP by (by apply Rabs_pos_lt). specialize (HM kz). set (P := Rabs (pick d kz)) in *.
    apply (Rmult_lt_reg_r (P * (S * S))); [apply Rmult_lt_0_compat; [done|apply Rmult_lt_0_compat; done]|]. assert (1 * (3 * / S) * (3 * / S) * D * / P * (P * (S * S)) = 9 * D) as -> by (field; lra).
    apply Rle_lt_trans with (eps1 * M * (S * S)); [|done]. assert (0 < S * S) by nra. assert (eps1 * P <= eps1 * M) by nra. nra. }
  assert (u + v + w <> 0) as Hn by (intros E; rewrite E, Rabs_R0 in HA; lra).
  apply (Hhit Hn) in Hin as (->&H1&H2&H3). apply Hacc.
  - assert (forall x, x = x / (u + v + w) * (u + v + w)) as Hx by (intros; field; done). unfold cross_code. rewrite andb_false_iff, !orb_false_iff, !Rltb_ge.
    pose proof (Hx u) as U. pose proof (Hx v) as V. pose proof (Hx w) as W. clear Hx Hhit Hrej Hacc Hdet. set (s := u + v + w) in *. set (x := u / s) in *. set (y := v / s) in *. set (z := w / s) in *. clearbody s x y z.
    destruct (Rle_lt_dec 0 s); [assert (0 <= u /\ 0 <= v /\ 0 <= w) by (repeat split; nra); left|assert (u <= 0 /\ v <= 0 /\ w <= 0) by (repeat split; nra); right]; repeat split; lra.
  - rewrite orb_true_iff, !Rltb_lt. unfold Rabs in HA. destruct (Rcase_abs (u + v + w)); [left|right]; lra.
Qed.
Example C60_example : rdot (0, 0, 1) (rcross (rsub (2, 0, 3) (0, 0, 3)) (rsub (0, 2, 3) (0, 0, 3))) <> 0 /\ InTri (0, 0, 3) (2, 0, 3) (0, 2, 3) (rpoint (1/2, 1/2, 0) 3 (0, 0, 1)).
Proof.
  unfold rdot, rcross, rsub, rpoint, InTri. cbn [fst snd]. split; [lra|]. exists (1/2), (1/4), (1/4). repeat split; try lra. apply f_equal2; [apply f_equal2|]; lra.
Qed.

(** ** C51: a segment that is not parallel to the triangle's plane *)
Theorem C51_segment_triangle_partial : forall inf eps2 p q a b c, 0 < inf -> rdot (rsub q p) (rcross (rsub b a) (rsub c a)) <> 0 ->
  exists r, segment_triangle ROps inf 0 eps2 p q a b c = Some r /\ (r = true <-> exists x, InSeg p q x /\ InTri a b c x).
Proof.
  intros inf eps2 p q a b c Hinf HD. unfold segment_triangle.
  assert (sub3 ROps q p = rsub q p) as -> by (destruct p as [[px py] pz], q as [[qx qy] qz]; reflexivity).
  assert (rsub q p <> (0, 0, 0)) as Hne by (intros E; apply HD; rewrite E; unfold rdot; cbn [fst snd]; ring).
  pose proof (norm_pos _ Hne) as Hn. set (N := norm3 ROps (rsub q p)) in *. unfold normalize. fold N. change (o_ltb ROps (o_zero ROps) N) with (Rltb 0 N).
  assert (Rltb 0 N = true) as -> by (by apply Rltb_lt). destruct (rsub q p) as [[dx dy] dz] eqn:Edir. cbn [mbind option_bind]. real_ops.
  assert (rdot (dx / N, dy / N, dz / N) (rcross (rsub b a) (rsub c a)) <> 0) as HD'.
  { intros E. apply HD. transitivity (N * rdot (dx / N, dy / N, dz / N) (rcross (rsub b a) (rsub c a))); [unfold rdot; cbn [fst snd]; field; lra|rewrite E; ring]. }
  assert (forall t, rpoint p t (dx / N, dy / N, dz / N) = rpoint p (t / N) (dx, dy, dz)) as HP by (intros t; unfold rpoint; cbn [fst snd]; apply f_equal2; [apply f_equal2|]; field; lra).
  destruct (C60_ray_triangle_exact inf eps2 p (dx / N, dy / N, dz / N) a b c HD') as [(t&E&Ht)|[E Ht]]; rewrite E; eexists; (split; [done|]); rewrite andb_true_iff, !Rleb_le.
  - split.
    + intros [H1 H2]. exists (rpoint p t (dx / N, dy / N, dz / N)). split; [|by apply Ht]. exists (t / N). rewrite Edir, <- HP. split; [|split; [|done]].
      * apply Rmult_le_pos; [done|]. left. by apply Rinv_0_lt_compat.
      * apply (Rmult_le_reg_r N); [done|]. unfold Rdiv. rewrite Rmult_assoc, Rinv_l by lra. lra.
    + intros (x&(s&S1&S2&->)&Hx). rewrite Edir in Hx. assert (s * N = t) as <-; [|split; nra]. apply Ht. rewrite HP. replace (s * N / N) with s by (field; lra). done.
  - split; [lra|]. intros (x&(s&S1&S2&->)&Hx). exfalso. apply (Ht (s * N)). rewrite HP, <- Edir. replace (s * N / N) with s by (field; lra). done.
Qed.
Example C51_example : rdot (rsub (1, 1, 2) (1, 1, -1)) (rcross (rsub (4, 0, 0) (0, 0, 0)) (rsub (0, 4, 0) (0, 0, 0))) <> 0 /\
  exists x, InSeg (1, 1, -1) (1, 1, 2) x /\ InTri (0, 0, 0) (4, 0, 0) (0, 4, 0) x.
Proof.
  split; [unfold rdot, rcross, rsub; cbn [fst snd]; lra|]. exists (1, 1, 0). split.
  - exists (1/3). unfold rpoint, rsub. cbn [fst snd]. repeat split; try lra. apply f_equal2; [apply f_equal2|]; lra.
  - exists (1/2), (1/4), (1/4). repeat split; try lra. cbn [fst snd]. apply f_equal2; [apply f_equal2|]; lra.
Qed.
Print Assumptions C43_no_division_by_zero.
Print Assumptions C43_ray_sphere.
Print Assumptions C43_overlap.
Print Assumptions C60_ray_triangle_exact.
Print Assumptions C60_no_false_negative.
Print Assumptions C51_segment_triangle_partial.
