(** C39, C51, C60: rays against boxes and triangles. *)
From Coq Require Import QArith Lqa Qfield SpecFloat.
From Verif Require Import Base GeomOps BoxModel ShapeModel ShapeSpec RayModel.
Local Open Scope Q_scope.

(** ** C39: ray against box *)
(** IEEE arithmetic without rounding: signed zeros, infinities, and exact non-zero rationals. *)
Inductive xq := XNan | XInf (s : bool) | XZero (s : bool) | XFin (q : Q).
Definition xmk (s : bool) (q : Q) : xq := if Qeq_bool q 0 then XZero s else XFin q.
Definition xsign (x : xq) : bool := match x with XNan => false | XInf s | XZero s => s | XFin q => Qltb q 0 end.
Definition xopp (x : xq) : xq := match x with XNan => XNan | XInf s => XInf (negb s) | XZero s => XZero (negb s) | XFin q => XFin (- q) end.
Definition xadd (x y : xq) : xq :=
  match x, y with
  | XNan, _ | _, XNan => XNan
  | XInf s, XInf s' => if Bool.eqb s s' then XInf s else XNan
  | XInf s, _ => XInf s
  | _, XInf s => XInf s
  | XZero s, XZero s' => XZero (s && s')
  | XZero _, _ => y
  | _, XZero _ => x
  | XFin p, XFin q => xmk false (p + q)
  end.
Definition xmul (x y : xq) : xq :=
  let s := xorb (xsign x) (xsign y) in
  match x, y with
  | XNan, _ | _, XNan => XNan
  | XInf _, XZero _ | XZero _, XInf _ => XNan
  | XInf _, _ | _, XInf _ => XInf s
  | XZero _, _ | _, XZero _ => XZero s
  | XFin p, XFin q => xmk s (p * q)
  end.
Definition xdiv (x y : xq) : xq :=
  let s := xorb (xsign x) (xsign y) in
  match x, y with
  | XNan, _ | _, XNan => XNan
  | XInf _, XInf _ | XZero _, XZero _ => XNan
  | XInf _, _ => XInf s
  | _, XInf _ => XZero s
  | _, XZero _ => XInf s
  | XZero _, _ => XZero s
  | XFin p, XFin q => xmk s (p / q)
  end.
Definition xcmp (x y : xq) : option comparison :=
  let v z := match z with XFin q => q | _ => 0 end in
  match x, y with
  | XNan, _ | _, XNan => None
  | XInf s, XInf s' => Some (match s, s' with true, false => Lt | false, true => Gt | _, _ => Eq end)
  | XInf s, _ => Some (if s then Lt else Gt)
  | _, XInf s => Some (if s then Gt else Lt)
  | _, _ => Some (v x ?= v y)
  end.
Definition XOps : Ops xq := {| o_zero := XZero false; o_one := XFin 1; o_add := xadd; o_sub x y := xadd x (xopp y); o_mul := xmul; o_div := xdiv;
  o_opp := xopp; o_sqrt := fun x => x;
  o_ltb x y := match xcmp x y with Some Lt => true | _ => false end;
  o_leb x y := match xcmp x y with Some Lt | Some Eq => true | _ => false end;
  o_eqb x y := match xcmp x y with Some Eq => true | _ => false end |}.
(** A rational as such a number; a zero is a positive zero. *)
Definition emb (q : Q) : xq := xmk false q.
Definition emb3 (p : Q3) : xq * xq * xq := (emb p.1.1, emb p.1.2, emb p.2).
(** The number denotes that rational. *)
Definition Denotes (x : xq) (q : Q) : Prop := match x with XZero _ => q == 0 | XFin p => p == q | _ => False end.

(** What it means for a number to be a lower or an upper bound of a rational. *)
Definition Lower (x : xq) (t : Q) : Prop := match x with XNan => False | XInf s => s = true | XZero _ => 0 <= t | XFin q => q <= t end.
Definition Upper (x : xq) (t : Q) : Prop := match x with XNan => False | XInf s => s = false | XZero _ => t <= 0 | XFin q => t <= q end.
Definition Num (x : xq) : Prop := x <> XNan.

Ltac xcases := repeat match goal with
  | H : (?a ?= ?b) = Lt |- _ => apply Qlt_alt in H | H : (?a ?= ?b) = Gt |- _ => apply Qgt_alt in H | H : (?a ?= ?b) = Eq |- _ => apply Qeq_alt in H end.
Lemma raise_ok x y t : Num x -> Num y -> Num (if o_ltb XOps x y then y else x) /\ (Lower (if o_ltb XOps x y then y else x) t <-> Lower x t /\ Lower y t).
Proof.
  intros Hx Hy. cbn [o_ltb XOps]. destruct x as [|[]|s|p], y as [|[]|s'|q]; try done; cbn [xcmp]; try (by split; [done|]; simpl; intuition (try lra; try done)).
  all: match goal with |- context [?a ?= ?b] => destruct (a ?= b) eqn:E end; xcases; (split; [done|]); simpl; lra.
Qed.
Lemma lower_ok x y t : Num x -> Num y -> Num (if o_ltb XOps y x then y else x) /\ (Upper (if o_ltb XOps y x then y else x) t <-> Upper x t /\ Upper y t).
Proof.
  intros Hx Hy. cbn [o_ltb XOps]. destruct x as [|[]|s|p], y as [|[]|s'|q]; try done; cbn [xcmp]; try (by split; [done|]; simpl; intuition (try lra; try done)).
  all: match goal with |- context [?a ?= ?b] => destruct (a ?= b) eqn:E end; xcases; (split; [done|]); simpl; lra.
Qed.
Lemma emb_denotes q : Denotes (emb q) q.
Proof. unfold emb, xmk. destruct (Qeq_bool q 0) eqn:E; simpl; [by apply Qeq_bool_iff|reflexivity]. Qed.
Lemma emb_zero q : o_eqb XOps (emb q) (o_zero XOps) = true <-> q == 0.
Proof.
  unfold emb, xmk. destruct (Qeq_bool q 0) eqn:E; [apply Qeq_bool_iff in E; simpl; tauto|]. apply Qeq_bool_neq in E. cbn -[Qcompare]. destruct (q ?= 0) eqn:F; xcases; split; intros K; done || lra.
Qed.
Lemma emb_pos q : o_ltb XOps (o_zero XOps) (emb q) = true <-> 0 < q.
Proof.
  unfold emb, xmk. destruct (Qeq_bool q 0) eqn:E; rewrite ?Qeq_bool_iff in *; [simpl; split; [done|lra]|]. cbn -[Qcompare]. destruct (0 ?= q) eqn:F; xcases; split; intros; (done || lra).
Qed.
Lemma emb_sub p q : Denotes (o_sub XOps (emb p) (emb q)) (p - q) /\ xsign (o_sub XOps (emb p) (emb q)) = Qltb (p - q) 0.
Proof.
  cbn [o_sub XOps]. unfold emb, xmk. destruct (Qeq_bool p 0) eqn:E1, (Qeq_bool q 0) eqn:E2; rewrite ?Qeq_bool_iff in *; cbn [xopp negb xadd Denotes xsign andb].
  - split; [lra|]. symmetry. apply Qltb_ge. lra.
  - split; [lra|]. apply eq_true_iff_eq. rewrite !Qltb_lt. lra.
  - split; [lra|]. apply eq_true_iff_eq. rewrite !Qltb_lt. lra.
  - unfold xmk. destruct (Qeq_bool (p + - q) 0) eqn:E; rewrite ?Qeq_bool_iff in *; cbn [Denotes xsign]; (split; [lra|]).
    + symmetry. apply Qltb_ge. lra.
    + reflexivity.
Qed.
Lemma div_denotes x a d : Denotes x a -> ~ d == 0 -> Denotes (o_div XOps x (emb d)) (a / d).
Proof.
  intros Hx Hd. cbn [o_div XOps]. unfold emb, xmk at 1. destruct (Qeq_bool d 0) eqn:E; [by apply Qeq_bool_iff in E|]. destruct x as [|s|s|p]; try done; cbn [xdiv Denotes] in *.
  - rewrite Hx. field. done.
  - unfold xmk. destruct (Qeq_bool (p / d) 0) eqn:F; cbn [Denotes]; [apply Qeq_bool_iff in F; rewrite <- Hx; done|rewrite Hx; reflexivity].
Qed.
Lemma denotes_lower x q t : Denotes x q -> Lower x t <-> q <= t.
Proof. destruct x as [| | |p]; try done; simpl; intros H; rewrite H; done. Qed.
Lemma denotes_upper x q t : Denotes x q -> Upper x t <-> t <= q.
Proof. destruct x as [| | |p]; try done; simpl; intros H; rewrite H; done. Qed.
Lemma denotes_zero x q : Denotes x q -> o_eqb XOps x (o_zero XOps) = true <-> q == 0.
Proof.
  intros H; destruct x as [|s|s|p]; [destruct H|destruct H|simpl in *; tauto|]. cbn -[Qcompare] in *. destruct (p ?= 0) eqn:F; xcases; split; intros; done || lra.
Qed.
Lemma denotes_num x q : Denotes x q -> Num x.
Proof. by destruct x. Qed.
Lemma div_le_l a d t : 0 < d -> a / d <= t <-> a <= t * d.
Proof. intros H. split; intros K; [|by apply Qle_shift_div_r]. assert (a == a / d * d) as E by (field; lra). rewrite E. nra. Qed.
Lemma div_ge_l a d t : 0 < d -> t <= a / d <-> t * d <= a.
Proof. intros H. split; intros K; [|by apply Qle_shift_div_l]. assert (a == a / d * d) as E by (field; lra). rewrite E. nra. Qed.
Lemma div_neg a d : d < 0 -> a / d == (- a) / (- d).
Proof. intros. field. lra. Qed.

Definition AxLow (a : option (xq * xq)) (t : Q) : Prop := match a with None => True | Some (lo, _) => Lower lo t end.
Definition AxUp (a : option (xq * xq)) (t : Q) : Prop := match a with None => True | Some (_, hi) => Upper hi t end.
Definition AxNum (a : option (xq * xq)) : Prop := match a with None => True | Some (lo, hi) => Num lo /\ Num hi end.
Lemma axis_ok o d mn mx : mn <= mx -> let a := ray_axis XOps (XInf false) xsign (emb o) (emb d) (emb mn) (emb mx) in
  AxNum a /\ (forall t, AxLow a t /\ AxUp a t <-> mn <= o + t * d /\ o + t * d <= mx) /\
  (~ d == 0 -> exists lo hi, (forall t, AxLow a t <-> lo <= t) /\ (forall t, AxUp a t <-> t <= hi)).
Proof.
  intros Hm. cbv zeta. unfold ray_axis. destruct (emb_sub mn o) as [D1 S1], (emb_sub mx o) as [D2 S2].
  destruct (o_eqb XOps (emb d) (o_zero XOps)) eqn:Ed.
  - apply emb_zero in Ed. set (mo := o_sub XOps (emb mn) (emb o)) in *. set (xo := o_sub XOps (emb mx) (emb o)) in *.
    assert (o_eqb XOps mo (o_zero XOps) = true <-> mn - o == 0) as HZ.
    { apply denotes_zero, D1. }
    destruct (o_eqb XOps mo (o_zero XOps)) eqn:Eo.
    + assert (mn - o == 0) as K by tauto. split; [done|]. split; [|done]. intros t. simpl. assert (t * d == 0) as F by (rewrite Ed; ring). split; [intros _; lra|tauto].
    + assert (~ mn - o == 0) as K by (intros K; apply HZ in K; congruence).
      assert (emb d = XZero false) as ED by (unfold emb, xmk; assert (Qeq_bool d 0 = true) as -> by (by apply Qeq_bool_iff); done).
      assert (forall x q, Denotes x q -> xsign (o_mul XOps (emb d) x) = xsign x) as HS.
      { intros x q Hx. rewrite ED. cbn [o_mul XOps]. destruct x as [|s|s|p]; try done; cbn [xmul xsign xorb]; by destruct (Qltb p 0) || destruct s. }
      rewrite (HS _ _ D1), (HS _ _ D2), S1, S2. clear HS ED. 
      assert (forall t, t * d == 0) as F by (intros t; rewrite Ed; ring).
      destruct (Qltb (mx - o) 0) eqn:E1, (Qltb (mn - o) 0) eqn:E2; rewrite ?Qltb_lt, ?Qltb_ge in *; (split; [done|]); (split; [|done]); intros t; specialize (F t); simpl.
      all: split; [intros [? ?]; done || lra|intros; try (split; done); lra].
  - assert (~ d == 0) as Hd by (intros Hd; apply emb_zero in Hd; congruence).
    destruct (o_ltb XOps (o_zero XOps) (emb d)) eqn:Ep.
    + apply emb_pos in Ep. pose proof (div_denotes _ _ _ D1 Hd) as V1. pose proof (div_denotes _ _ _ D2 Hd) as V2.
      split; [split; by eapply denotes_num|]. cbn [AxLow AxUp]. split.
      * intros t. rewrite (denotes_lower _ _ _ V1), (denotes_upper _ _ _ V2), div_le_l, div_ge_l by done. split; intros [? ?]; split; lra.
      * intros _. exists ((mn - o) / d), ((mx - o) / d). split; intros t; [by rewrite (denotes_lower _ _ _ V1)|by rewrite (denotes_upper _ _ _ V2)].
    + assert (d < 0) as Hn. { destruct (Qlt_le_dec d 0); [done|]. exfalso. apply not_true_iff_false in Ep. apply Ep, emb_pos. destruct (Qle_lt_or_eq 0 d) as [?|E]; [done|done|]. exfalso. apply Hd. by rewrite <- E. }
      pose proof (div_denotes _ _ _ D1 Hd) as V1. pose proof (div_denotes _ _ _ D2 Hd) as V2.
      split; [split; by eapply denotes_num|]. cbn [AxLow AxUp]. split.
      * intros t. rewrite (denotes_lower _ _ _ V2), (denotes_upper _ _ _ V1), !(div_neg _ d Hn), div_le_l, div_ge_l by lra. split; intros [? ?]; split; lra.
      * intros _. exists ((mx - o) / d), ((mn - o) / d). split; intros t; [by rewrite (denotes_lower _ _ _ V2)|by rewrite (denotes_upper _ _ _ V1)].
Qed.
Lemma narrow_ok t a : Num t.1 -> Num t.2 -> AxNum a -> Num (narrow XOps t a).1 /\ Num (narrow XOps t a).2 /\
  (forall s, Lower (narrow XOps t a).1 s <-> Lower t.1 s /\ AxLow a s) /\ (forall s, Upper (narrow XOps t a).2 s <-> Upper t.2 s /\ AxUp a s).
Proof.
  intros N1 N2 Na. destruct a as [[lo hi]|]; cbn [narrow AxNum AxLow AxUp fst snd] in *; [|tauto]. destruct Na as [Nl Nh].
  split; [apply (raise_ok t.1 lo 0); done|]. split; [apply (lower_ok t.2 hi 0); done|]. split; intros s; [by apply raise_ok|by apply lower_ok].
Qed.
(** The interval the code computes. *)
Lemma ray_box_ok o d mn mx : mn.1.1 <= mx.1.1 -> mn.1.2 <= mx.1.2 -> mn.2 <= mx.2 -> ~ (d.1.1 == 0 /\ d.1.2 == 0 /\ d.2 == 0) ->
  exists lo hi, ray_box XOps (XInf false) xsign (emb3 o) (emb3 d) (emb3 mn) (emb3 mx) = (o_leb XOps lo hi, lo, hi) /\ Num lo /\ Num hi /\
  (forall t, Lower lo t /\ Upper hi t <-> InBox3 mn mx (at3 1 o t d)) /\ (exists t, ~ Lower lo t) /\ (exists t, ~ Upper hi t).
Proof.
  destruct o as [[ox oy] oz], d as [[dx dy] dz], mn as [[nx ny] nz], mx as [[xx xy] xz]. cbn [fst snd]. intros H1 H2 H3 Hd.
  unfold ray_box, emb3. cbn [fst snd].
  destruct (axis_ok ox dx nx xx H1) as (NX&AX&FX), (axis_ok oy dy ny xy H2) as (NY&AY&FY), (axis_ok oz dz nz xz H3) as (NZ&AZ&FZ). cbv zeta in *.
  set (a1 := ray_axis _ _ _ (emb ox) _ _ _) in *. set (a2 := ray_axis _ _ _ (emb oy) _ _ _) in *. set (a3 := ray_axis _ _ _ (emb oz) _ _ _) in *.
  destruct (narrow_ok (o_opp XOps (XInf false), XInf false) a1) as (M1&M2&ML&MU); [done|done|done|]. set (t1 := narrow _ _ a1) in *.
  destruct (narrow_ok t1 a2) as (P1&P2&PL&PU); [done|done|done|]. set (t2 := narrow _ t1 a2) in *.
  destruct (narrow_ok t2 a3) as (R1&R2&RL&RU); [done|done|done|]. set (t3 := narrow _ t2 a3) in *.
  assert (forall s, Lower t3.1 s <-> AxLow a1 s /\ AxLow a2 s /\ AxLow a3 s) as HL. { intros s. rewrite RL, PL, ML. simpl. tauto. }
  assert (forall s, Upper t3.2 s <-> AxUp a1 s /\ AxUp a2 s /\ AxUp a3 s) as HU. { intros s. rewrite RU, PU, MU. simpl. tauto. }
  exists t3.1, t3.2. split; [done|]. split; [done|]. split; [done|]. split.
  { intros t. rewrite HL, HU. unfold InBox3, at3. cbn [fst snd]. specialize (AX t). specialize (AY t). specialize (AZ t).
    rewrite !Qmult_1_l. tauto. }
  assert (exists lo hi, (forall t, Lower t3.1 t -> lo <= t) /\ (forall t, Upper t3.2 t -> t <= hi)) as (lo&hi&L1&L2).
  { destruct (Qeq_dec dx 0) as [Ex|Ex].
    - destruct (Qeq_dec dy 0) as [Ey|Ey].
      + destruct (Qeq_dec dz 0) as [Ez|Ez]; [tauto|]. destruct (FZ Ez) as (lo&hi&K1&K2). exists lo, hi. split; intros t Ht; [apply K1|apply K2]; apply HL in Ht || apply HU in Ht; tauto.
      + destruct (FY Ey) as (lo&hi&K1&K2). exists lo, hi. split; intros t Ht; [apply K1|apply K2]; apply HL in Ht || apply HU in Ht; tauto.
    - destruct (FX Ex) as (lo&hi&K1&K2). exists lo, hi. split; intros t Ht; [apply K1|apply K2]; apply HL in Ht || apply HU in Ht; tauto. }
  split; [exists (lo - 1); intros K; apply L1 in K; lra|exists (hi + 1); intros K; apply L2 in K; lra].
Qed.

Lemma interval_ok lo hi : Num lo -> Num hi -> (exists t, ~ Lower lo t) -> (exists t, ~ Upper hi t) ->
  if o_leb XOps lo hi && o_leb XOps (o_zero XOps) hi
  then exists v, 0 <= v /\ Lower lo v /\ Upper hi v /\ (forall t, 0 <= t -> Lower lo t -> v <= t) /\ Denotes (kmax XOps lo (o_zero XOps)) v
  else forall t, 0 <= t -> ~ (Lower lo t /\ Upper hi t).
Proof.
  intros Nl Nh [tl Hl] [th Hh]. unfold kmax. cbn [o_leb o_ltb XOps o_zero].
  destruct lo as [|[]|s|p]; [done|exfalso; by apply Hl| | |]; (destruct hi as [|[]|s'|q]; [done| |exfalso; by apply Hh| |]); cbn [xcmp Lower Upper Denotes andb] in *;
    repeat match goal with |- context [match (?a ?= ?b) with _ => _ end] => destruct (a ?= b) eqn:?; xcases; cbn [andb Denotes] end;
    try (intros t Ht [? ?]; done || lra); try lra.
  all: first [ exists 0; cbn [Denotes]; repeat split; try done; try (intros; lra); lra | exists p; cbn [Denotes]; repeat split; try reflexivity; try (intros; lra); lra ].
Qed.
(** intersects and distance, for directions without negative zeros. *)
Theorem C39_ray_box : forall o d mn mx, mn.1.1 <= mx.1.1 -> mn.1.2 <= mx.1.2 -> mn.2 <= mx.2 -> ~ (d.1.1 == 0 /\ d.1.2 == 0 /\ d.2 == 0) ->
  ray_meets_box XOps (XInf false) xsign (emb3 o) (emb3 d) (emb3 mn) (emb3 mx) = true <-> exists t, 0 <= t /\ InBox3 mn mx (at3 1 o t d).
Proof.
  intros o d mn mx H1 H2 H3 Hd. destruct (ray_box_ok o d mn mx H1 H2 H3 Hd) as (lo&hi&E&Nl&Nh&HI&Hl&Hh). unfold ray_meets_box. rewrite E.
  pose proof (interval_ok lo hi Nl Nh Hl Hh) as K. destruct (o_leb XOps lo hi && o_leb XOps (o_zero XOps) hi) eqn:Eb; [destruct K as (v&K1&K2&K3&_)|]; (split; [|done || intros (t&Ht&Hb)]).
  - intros _. exists v. split; [done|]. by apply HI.
  - done.
  - exfalso. apply (K t Ht). by apply HI.
Qed.
Theorem C39_ray_box_distance : forall o d mn mx, mn.1.1 <= mx.1.1 -> mn.1.2 <= mx.1.2 -> mn.2 <= mx.2 -> ~ (d.1.1 == 0 /\ d.1.2 == 0 /\ d.2 == 0) ->
  let r := ray_box_distance XOps (XInf false) xsign (emb3 o) (emb3 d) (emb3 mn) (emb3 mx) in
  (exists v, Denotes r v /\ 0 <= v /\ InBox3 mn mx (at3 1 o v d) /\ forall t, 0 <= t -> InBox3 mn mx (at3 1 o t d) -> v <= t) \/
  (r = XInf false /\ forall t, 0 <= t -> ~ InBox3 mn mx (at3 1 o t d)).
Proof.
  intros o d mn mx H1 H2 H3 Hd. cbv zeta. destruct (ray_box_ok o d mn mx H1 H2 H3 Hd) as (lo&hi&E&Nl&Nh&HI&Hl&Hh). unfold ray_box_distance. rewrite E.
  pose proof (interval_ok lo hi Nl Nh Hl Hh) as K. destruct (o_leb XOps lo hi && o_leb XOps (o_zero XOps) hi) eqn:Eb.
  - left. destruct K as (v&K1&K2&K3&K4&K5). exists v. split; [done|]. split; [done|]. split; [by apply HI|]. intros t Ht Hb. apply HI in Hb. apply K4; tauto.
  - right. split; [done|]. intros t Ht Hb. apply (K t Ht). by apply HI.
Qed.
Example C39_example : ray_meets_box XOps (XInf false) xsign (emb3 (0, 1, -3)) (emb3 (0, 0, 1)) (emb3 (-1, -1, -1)) (emb3 (1, 1, 1)) = true /\
  ray_box_distance XOps (XInf false) xsign (emb3 (0, 1, -3)) (emb3 (0, 0, 1)) (emb3 (-1, -1, -1)) (emb3 (1, 1, 1)) = XFin (Qmake 2 1) /\
  ray_meets_box XOps (XInf false) xsign (emb3 (0, 2, -3)) (emb3 (0, 0, 1)) (emb3 (-1, -1, -1)) (emb3 (1, 1, 1)) = false.
Proof. vm_compute. done. Qed.

(** The numbers of the machine. *)
Definition finf : spec_float := S754_infinity false.
Definition fsign (x : spec_float) : bool := match x with S754_zero s | S754_infinity s | S754_finite s _ _ => s | S754_nan => false end.
Definition i64 (p : Z * Z * Z) : spec_float * spec_float * spec_float := (f64 p.1.1 0, f64 p.1.2 0, f64 p.2 0).
Definition i32 (p : Z * Z * Z) : spec_float * spec_float * spec_float := (f32 p.1.1 0, f32 p.1.2 0, f32 p.2 0).
Definition zq (p : Z * Z * Z) : Q3 := (inject_Z p.1.1, inject_Z p.1.2, inject_Z p.2).
(** A ray through the middle of a box is rejected when a zero of its direction is negative; all numbers involved are
    small integers, so nothing is rounded. *)
Theorem C39_negative_zero_refuted : exists o d mn mx t, 0 <= t /\ InBox3 (zq mn) (zq mx) (at3 1 (zq o) t (zq d)) /\
  d.1.1 = 0%Z /\ ray_meets_box F32 finf fsign (i32 o) (S754_zero true, (i32 d).1.2, (i32 d).2) (i32 mn) (i32 mx) = false /\
  ray_meets_box F32 finf fsign (i32 o) (S754_zero false, (i32 d).1.2, (i32 d).2) (i32 mn) (i32 mx) = true.
Proof.
  exists (0, 0, -2)%Z, (0, 0, 1)%Z, (-1, -1, -1)%Z, (1, 1, 1)%Z, 2. split; [done|]. split; [vm_compute; repeat split; discriminate|]. vm_compute. done.
Qed.
(** Also with a positive zero direction, when the box's upper face is at a negative zero. *)
Theorem C39_negative_zero_corner_refuted : exists o d mn mx t, 0 <= t /\ InBox3 (zq mn) (zq mx) (at3 1 (zq o) t (zq d)) /\
  mx.1.1 = 0%Z /\ ray_meets_box F32 finf fsign (i32 o) (i32 d) (i32 mn) (S754_zero true, (i32 mx).1.2, (i32 mx).2) = false /\
  ray_meets_box F32 finf fsign (i32 o) (i32 d) (i32 mn) (S754_zero false, (i32 mx).1.2, (i32 mx).2) = true.
Proof.
  exists (0, 0, -2)%Z, (0, 0, 1)%Z, (-1, -1, -1)%Z, (0, 1, 1)%Z, 2. split; [done|]. split; [vm_compute; repeat split; discriminate|]. vm_compute. done.
Qed.

(** ** C60: ray against triangle *)
Definition eps1 : spec_float := f64 14073749 (-47).
Definition eps2 : spec_float := f64 10995116 (-40).
(** Reported as hit at t = 1, although the ray passes five units from a triangle two units wide. *)
Theorem C60_false_positive_refuted : exists o d a b c, ray_meets_triangle F64 finf eps1 eps2 (i64 o) (i64 d) (i64 a) (i64 b) (i64 c) = true /\
  (forall t, ~ InTriangle3 (zq a) (zq b) (zq c) (at3 1 (zq o) t (zq d))) /\
  (forall p, InTriangle3 (zq a) (zq b) (zq c) p -> 5 <= p.1.2) /\ (forall t, (at3 1 (zq o) t (zq d)).1.2 == 0).
Proof.
  exists (0, 0, 0)%Z, (0, 0, 1)%Z, (1, 5, 16384)%Z, (-1, 5, 16384)%Z, (0, 6, 16384)%Z. split; [vm_compute; done|].
  assert (forall p, InTriangle3 (zq (1, 5, 16384)%Z) (zq (-1, 5, 16384)%Z) (zq (0, 6, 16384)%Z) p -> 5 <= p.1.2) as K.
  { intros p (l&m&n&Hl&Hm&Hn&S&E1&E2&E3). unfold at3, zq in *. cbn [fst snd] in *. unfold inject_Z in *. lra. }
  split; [|split; [exact K|intros t; unfold at3, zq; cbn [fst snd]; unfold inject_Z; lra]]. intros t Ht. apply K in Ht. unfold at3, zq in Ht. cbn [fst snd] in Ht. unfold inject_Z in Ht. lra.
Qed.
(** Missed, although the origin of the ray is the midpoint of an edge. *)
Theorem C60_false_negative_refuted : exists o d a b c, InTriangle3 (zq a) (zq b) (zq c) (zq o) /\
  ray_meets_triangle F64 finf eps1 eps2 (i64 o) (i64 d) (i64 a) (i64 b) (i64 c) = false.
Proof.
  exists (0, 0, 0)%Z, (0, 0, 1)%Z, (-1, 0, 0)%Z, (1, 0, 0)%Z, (0, 0, -1)%Z. split; [|vm_compute; done].
  exists (1 # 2), (1 # 2), 0. vm_compute. repeat split; discriminate.
Qed.

(** ** C51: segment against triangle *)
(** A segment that ends inside the triangle, in its plane: the code compares the far end of the overlap with the length. *)
Theorem C51_coplanar_refuted : exists p q a b c, InTriangle3 (zq a) (zq b) (zq c) (zq q) /\
  segment_triangle F64 finf eps1 eps2 (i64 p) (i64 q) (i64 a) (i64 b) (i64 c) = Some false.
Proof.
  exists (-1, 1, 0)%Z, (1, 1, 0)%Z, (0, 0, 0)%Z, (4, 0, 0)%Z, (0, 4, 0)%Z. split; [|vm_compute; done].
  exists (1 # 2), (1 # 4), (1 # 4). vm_compute. repeat split; discriminate.
Qed.
Print Assumptions C39_ray_box.
Print Assumptions C39_ray_box_distance.
Print Assumptions C39_negative_zero_refuted.
Print Assumptions C39_negative_zero_corner_refuted.
Print Assumptions C60_false_positive_refuted.
Print Assumptions C60_false_negative_refuted.
Print Assumptions C51_coplanar_refuted.
