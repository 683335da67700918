(** The compact radial basis functions over the real numbers. *)
From Coq Require Import Reals Lra Psatz.
From Verif Require Import Base GeomOps BoxModel InterpModel PropertiesRayReal.
Local Open Scope R_scope.

(** ** Decreasing functions *)
Lemma decreasing_by_derivative (f f' : R -> R) a b : a <= b ->
  (forall c, a <= c <= b -> derivable_pt_lim f c (f' c)) -> (forall c, a < c < b -> f' c <= 0) -> f b <= f a.
Proof.
  intros Hab Hd Hn. destruct (Rle_lt_or_eq_dec a b Hab) as [H|<-]; [|lra].
  destruct (MVT_cor2 f f' a b H Hd) as (c & Hc & Hc'). specialize (Hn c Hc'). nra.
Qed.
Lemma strictly_decreasing_by_derivative (f f' : R -> R) a b : a < b ->
  (forall c, a <= c <= b -> derivable_pt_lim f c (f' c)) -> (forall c, a < c < b -> f' c < 0) -> f b < f a.
Proof. intros H Hd Hn. destruct (MVT_cor2 f f' a b H Hd) as (c & Hc & Hc'). specialize (Hn c Hc'). nra. Qed.

(** Polynomials, constant coefficient first, and their derivatives. *)
Fixpoint peval (l : list R) (x : R) : R := match l with [] => 0 | c :: l => c + x * peval l x end.
Fixpoint pderiv (l : list R) (x : R) : R := match l with [] => 0 | c :: l => peval l x + x * pderiv l x end.
Lemma peval_derivative l x : derivable_pt_lim (peval l) x (pderiv l x).
Proof.
  induction l as [|c l IH]; cbn [peval pderiv].
  - apply derivable_pt_lim_const.
  - replace (peval l x + x * pderiv l x) with (0 + (1 * peval l x + x * pderiv l x)) by ring.
    apply (derivable_pt_lim_plus (fun _ => c) (fun x => x * peval l x)); [apply derivable_pt_lim_const|].
    apply (derivable_pt_lim_mult (fun x => x) (peval l)); [apply derivable_pt_lim_id|done].
Qed.

(** ** The functions in closed form *)
Definition rlit (z : Z) : R := IZR z.
Notation body := (crbf_body ROps rlit ln).
Notation evaluate := (crbf_evaluate ROps rlit ln).

(** The polynomial behind each function: in x, or in the square root of x for the last two. *)
Definition shape (f : crbf) : list R :=
  match f with
  | Wendland0 => [1; -2; 1]
  | Wendland2 => [1; 0; -10; 20; -15; 4]
  | Wendland4 => [3; 0; -28; 0; 210; -448; 420; -192; 35]
  | Wendland6 => [1; 0; -11; 0; 66; 0; -462; 1056; -1155; 704; -231; 32]
  | Wu2 => [4; 0; -28; 35; 0; -14; 0; 3]
  | Wu4 => [6; 0; -44; 0; 198; -231; 0; 99; 0; -33; 0; 5]
  | Buhmann2 => []
  | Buhmann3 => [1; 0; 0; 0; -84/5; 0; 0; 1024/5; -378; 1024/5; 0; 0; -84/5; 0; 0; 0; 1]
  | Buhmann4 => [1; 0; 0; 0; -396/35; 0; 0; 0; 198; -11264/35; 0; 9216/35; -132; 0; 0; 0; 99/35]
  end.
Definition argument (f : crbf) (x : R) : R := match f with Buhmann3 | Buhmann4 => R_sqrt.sqrt x | _ => x end.

Ltac unbody := unfold crbf_body, poly, evaluate_polynomial, power, rlit; cbn [fmap list_fmap foldl]; real_ops.
Lemma body_shape f x : f <> Buhmann2 -> 0 <= x -> body f x = peval (shape f) (argument f x).
Proof.
  intros Hf Hx. destruct f; try done; unbody; cbn [peval shape argument]; try ring.
  - pose proof (sqrt_sqrt x Hx) as E. set (s := R_sqrt.sqrt x) in *. clearbody s. rewrite <- E. field.
  - pose proof (sqrt_sqrt x Hx) as E. set (s := R_sqrt.sqrt x) in *. clearbody s. rewrite <- E. field.
Qed.
(** minus the derivative, divided by powers of 1 - s; all coefficients are non-negative. *)
Definition slope (f : crbf) : nat * list R :=
  match f with
  | Wendland0 => (1%nat, [2])
  | Wendland2 => (3%nat, [0; 20])
  | Wendland4 => (5%nat, [0; 56; 280])
  | Wendland6 => (7%nat, [0; 22; 154; 352])
  | Wu2 => (3%nat, [0; 56; 63; 21])
  | Wu4 => (5%nat, [0; 88; 440; 528; 275; 55])
  | Buhmann2 => (0%nat, [])
  | Buhmann3 => (5%nat, [0; 0; 0; 336/5; 336; 1008; 4592/5; 560; 240; 80; 16])
  | Buhmann4 => (5%nat, [0; 0; 0; 1584/35; 1584/7; 4752/7; 1584; 1584; 4752/7; 1584/7; 1584/35])
  end.
Lemma shape_slope f s : pderiv (shape f) s = - ((1 - s) ^ (slope f).1 * peval (slope f).2 s).
Proof. destruct f; cbn [pderiv peval shape slope fst snd]; try ring; field. Qed.
Lemma slope_positive f s : f <> Buhmann2 -> 0 < s -> 0 < peval (slope f).2 s.
Proof.
  intros Hf Hs. destruct f; try done; cbn [peval slope fst snd];
    repeat match goal with
    | |- 0 < 0 + s * _ => rewrite Rplus_0_l; apply Rmult_lt_0_compat; [done|]
    | |- 0 < _ + s * 0 => rewrite Rmult_0_r; lra
    | |- 0 < _ + s * _ => apply Rplus_lt_0_compat; [lra|apply Rmult_lt_0_compat; [done|]]
    end.
Qed.
Lemma shape_decreasing f s t : f <> Buhmann2 -> 0 <= s -> s < t -> t <= 1 -> peval (shape f) t < peval (shape f) s.
Proof.
  intros Hf H0 Hst H1. apply (strictly_decreasing_by_derivative (peval (shape f)) (pderiv (shape f))); [done| |].
  - intros c _. apply peval_derivative.
  - intros c Hc. rewrite shape_slope. pose proof (slope_positive f c Hf ltac:(lra)).
    assert (0 < (1 - c) ^ (slope f).1) by (apply pow_lt; lra). nra.
Qed.
Lemma shape_at_one f : peval (shape f) 1 = 0.
Proof. destruct f; cbn [peval shape]; try ring; field. Qed.

(** Buhmann's first function has a logarithm. *)
Definition buhmann2 (x : R) : R := (12 * ln x - 21) * x ^ 4 + 32 * x ^ 3 - 12 * x ^ 2 + 1.
Definition buhmann2' (x : R) : R := 24 * x * (x ^ 2 * (2 * ln x - 3 + 4 * / x - (/ x) ^ 2)).
Lemma body_buhmann2 x : 0 < x -> body Buhmann2 x = buhmann2 x / 6.
Proof.
  intros Hx. unbody. destruct (Reqb x 0) eqn:E; [apply Reqb_eq in E; lra|]. unfold buhmann2. field.
Qed.
Lemma ln_derivative x : 0 < x -> derivable_pt_lim ln x (/ x). Proof. apply derivable_pt_lim_ln. Qed.
Lemma buhmann2_derivative x : 0 < x -> derivable_pt_lim buhmann2 x (buhmann2' x).
Proof.
  intros Hx. unfold buhmann2'.
  pose proof (derivable_pt_lim_mult ln (peval [0; 0; 0; 0; 12]) x _ _ (ln_derivative x Hx) (peval_derivative _ x)) as H1.
  pose proof (derivable_pt_lim_plus _ _ x _ _ H1 (peval_derivative [1; 0; -12; 32; -21] x)) as H2.
  cbn [peval pderiv] in H2.
  match type of H2 with derivable_pt_lim ?g _ ?d => assert (Hg : forall y, g y = buhmann2 y) end.
  { intros y. unfold plus_fct, mult_fct, buhmann2. cbn [peval]. ring. }
  match type of H2 with derivable_pt_lim ?g _ ?d => assert (Hd : d = buhmann2' x) end.
  { unfold buhmann2'. field. lra. }
  rewrite Hd in H2. intros eps Heps. destruct (H2 eps Heps) as [delta Hdelta]. exists delta. intros h Hh Hh'.
  rewrite <- !Hg. apply Hdelta; done.
Qed.
(** 2 ln x - 3 + 4/x - 1/x^2 increases to 0 at x = 1. *)
Lemma log_bound x : 0 < x -> x < 1 -> 2 * ln x - 3 + 4 * / x - (/ x) ^ 2 < 0.
Proof.
  intros H0 H1. set (k := fun x => 2 * ln x - 3 + 4 * / x - (/ x) ^ 2). set (k' := fun x => 2 * (1 - x) ^ 2 * (/ x) ^ 3).
  assert (Hd : forall c, 0 < c -> derivable_pt_lim k c (k' c)).
  { intros c Hc.
    pose proof (derivable_pt_lim_div (fct_cte 1) id c _ _ (derivable_pt_lim_const 1 c) (derivable_pt_lim_id c) ltac:(unfold id; lra)) as Hi.
    pose proof (derivable_pt_lim_comp (fct_cte 1 / id)%F (peval [-3; 4; -1]) c _ _ Hi (peval_derivative _ _)) as Hp.
    pose proof (derivable_pt_lim_plus _ _ c _ _ (derivable_pt_lim_scal ln 2 c _ (ln_derivative c Hc)) Hp) as Ha.
    match type of Ha with derivable_pt_lim ?g _ ?d => assert (Hg : forall y, g y = k y); [|assert (He : d = k' c)] end.
    { intros y. unfold k, plus_fct, mult_real_fct, comp, div_fct, fct_cte, id, Rdiv. cbn [peval]. ring. }
    { unfold k', div_fct, fct_cte, id, Rsqr. cbn [peval pderiv]. field. lra. }
    rewrite He in Ha. intros eps Heps. destruct (Ha eps Heps) as [delta Hdelta]. exists delta. intros h Hh Hh'.
    rewrite <- !Hg. apply Hdelta; done. }
  destruct (MVT_cor2 k k' x 1 H1) as (c & Hc & Hc').
  { intros c Hc. apply Hd. lra. }
  assert (k 1 = 0) as E1 by (unfold k; rewrite ln_1; field).
  assert (0 < k' c).
  { unfold k'. apply Rmult_lt_0_compat; [|apply pow_lt, Rinv_0_lt_compat; lra].
    apply Rmult_lt_0_compat; [lra|]. apply pow_lt. lra. }
  fold (k x). nra.
Qed.
Lemma buhmann2_decreasing s t : 0 < s -> s < t -> t <= 1 -> buhmann2 t < buhmann2 s.
Proof.
  intros H0 Hst H1. apply (strictly_decreasing_by_derivative buhmann2 buhmann2'); [done| |].
  - intros c Hc. apply buhmann2_derivative. lra.
  - intros c Hc. unfold buhmann2'. pose proof (log_bound c ltac:(lra) ltac:(lra)). 
    assert (0 < c ^ 2) by (apply pow_lt; lra).
    assert (0 < 24 * c * c ^ 2) by (apply Rmult_lt_0_compat; lra).
    rewrite <- Rmult_assoc. nra.
Qed.
Lemma buhmann2_at_one : buhmann2 1 = 0.
Proof. unfold buhmann2. rewrite ln_1. ring. Qed.

Lemma ln_le x : 0 < x -> ln x <= x - 1.
Proof.
  intros Hx. pose proof (exp_ineq1_le (ln x)) as H. rewrite exp_ln in H by done. lra.
Qed.
Lemma buhmann2_below t : 0 < t -> t <= 1 -> buhmann2 t < 1.
Proof.
  intros H0 H1. unfold buhmann2. pose proof (ln_le t H0) as HL.
  assert (12 * t ^ 2 * ln t <= 12 * t ^ 2 * (t - 1)) by (apply Rmult_le_compat_l; [|done]; assert (0 <= t ^ 2) by (apply pow_le; lra); lra).
  assert (12 * t ^ 2 * (t - 1) - 21 * t ^ 2 + 32 * t - 12 < 0).
  { replace (12 * t ^ 2 * (t - 1) - 21 * t ^ 2 + 32 * t - 12) with ((t - 1) * (12 * t * t - 21 * t + 11) - 1) by ring.
    assert (0 < 12 * t * t - 21 * t + 11) by (pose proof (Rle_0_sqr (t - 7 / 8)) as Hs; unfold Rsqr in Hs; lra). nra. }
  assert (0 < t ^ 2) by (apply pow_lt; lra).
  assert (t ^ 2 * (12 * t ^ 2 * ln t - 21 * t ^ 2 + 32 * t - 12) < 0) by nra. nra.
Qed.

(** ** The functions on [0, 1] *)
Global Instance crbf_eq_dec : EqDecision crbf.
Proof. solve_decision. Defined.
Lemma argument_range f x : 0 <= x -> x <= 1 -> 0 <= argument f x <= 1.
Proof.
  intros H0 H1. destruct f; cbn [argument]; try lra.
  - split; [apply sqrt_pos|]. rewrite <- sqrt_1. by apply sqrt_le_1_alt.
  - split; [apply sqrt_pos|]. rewrite <- sqrt_1. by apply sqrt_le_1_alt.
Qed.
Lemma argument_mono f x y : 0 <= x -> x < y -> argument f x < argument f y.
Proof. intros H0 H1. destruct f; cbn [argument]; try lra; apply sqrt_lt_1_alt; lra. Qed.
Lemma body_decreasing f x y : 0 <= x -> x < y -> y <= 1 -> body f y < body f x.
Proof.
  intros H0 Hxy H1. destruct (decide (f = Buhmann2)) as [->|Hf].
  { rewrite (body_buhmann2 y) by lra. destruct (Rle_lt_or_eq_dec 0 x H0) as [Hx|<-].
    - rewrite body_buhmann2 by done. pose proof (buhmann2_decreasing x y Hx Hxy H1). lra.
    - unbody. destruct (Reqb 0 0) eqn:E; [|apply Reqb_ne in E; lra].
      pose proof (buhmann2_below y ltac:(lra) H1). lra. }
  rewrite !body_shape by (done || lra).
  pose proof (argument_mono f x y H0 Hxy). pose proof (argument_range f x H0 ltac:(lra)).
  pose proof (argument_range f y ltac:(lra) H1). apply shape_decreasing; [done|lra..].
Qed.
Lemma body_at_one f : body f 1 = 0.
Proof.
  destruct (decide (f = Buhmann2)) as [->|Hf].
  - rewrite body_buhmann2, buhmann2_at_one by lra. field.
  - rewrite body_shape by (done || lra).
    assert (argument f 1 = 1) as ->; [|apply shape_at_one]. destruct f; cbn [argument]; try done; apply sqrt_1.
Qed.

Lemma t_abs_Rabs x : t_abs ROps x = Rabs x.
Proof.
  unfold t_abs. real_ops. destruct (Rltb x 0) eqn:E; rewrite ?Rltb_lt, ?Rltb_ge in E.
  - by rewrite Rabs_left.
  - rewrite Rabs_right; lra.
Qed.
Lemma clamp_inside y : Rabs y <= 1 -> kmin ROps (t_abs ROps y) (rlit 1) = Rabs y.
Proof.
  intros H. rewrite t_abs_Rabs. unfold kmin, rlit. real_ops. destruct (Rltb 1 (Rabs y)) eqn:E; [|done].
  apply Rltb_lt in E. lra.
Qed.
Lemma clamp_outside y : 1 <= Rabs y -> kmin ROps (t_abs ROps y) (rlit 1) = 1.
Proof.
  intros H. rewrite t_abs_Rabs. unfold kmin, rlit. real_ops. destruct (Rltb 1 (Rabs y)) eqn:E; [done|].
  apply Rltb_ge in E. lra.
Qed.

(** ** C45 *)
(** Each of the nine functions is even, vanishes at and beyond the support radius, is positive inside it and decreases
    strictly with the distance; so the largest weight is the one at the origin, which is the value listed. *)
Theorem C45_support f y : 1 <= Rabs y -> evaluate f y = 0.
Proof. intros H. unfold crbf_evaluate. by rewrite clamp_outside, body_at_one, t_abs_Rabs, Rabs_R0. Qed.
Theorem C45_even f y : evaluate f (- y) = evaluate f y.
Proof. unfold crbf_evaluate. by rewrite (t_abs_Rabs y), (t_abs_Rabs (- y)), Rabs_Ropp. Qed.
(** Inside the support the absolute value around the expression changes nothing. *)
Theorem C45_inside f y : Rabs y < 1 -> evaluate f y = body f (Rabs y) /\ 0 < evaluate f y.
Proof.
  intros H. unfold crbf_evaluate. rewrite clamp_inside by lra. rewrite t_abs_Rabs.
  pose proof (body_decreasing f (Rabs y) 1 (Rabs_pos y) H ltac:(lra)) as Hd. rewrite body_at_one in Hd.
  rewrite Rabs_right by lra. split; [done|lra].
Qed.
Theorem C45_decreasing f y z : Rabs y < Rabs z -> Rabs z <= 1 -> evaluate f z < evaluate f y.
Proof.
  intros H H1. destruct (C45_inside f y ltac:(lra)) as [-> Hy].
  destruct (Rle_lt_or_eq_dec _ _ H1) as [H1'|H1'].
  - destruct (C45_inside f z H1') as [-> Hz]. apply body_decreasing; [apply Rabs_pos|done..].
  - rewrite C45_support by lra. destruct (C45_inside f y ltac:(lra)) as [E ?]. lra.
Qed.
Theorem C45_at_zero f : evaluate f 0 =
  match f with Wendland4 => 3 | Wu2 => 4 | Wu4 => 6 | Buhmann2 => 1 / 6 | _ => 1 end.
Proof.
  destruct (C45_inside f 0) as [-> _]; [rewrite Rabs_R0; lra|]. rewrite Rabs_R0.
  destruct (decide (f = Buhmann2)) as [->|Hf].
  - unbody. destruct (Reqb 0 0) eqn:E; [done|apply Reqb_ne in E; lra].
  - rewrite body_shape by (done || lra). destruct f; try done; cbn [argument shape peval]; rewrite ?sqrt_0; ring.
Qed.

(** Half-way out Wendland's first weight is 1/4. *)
Example C45_example : evaluate Wendland0 (1 / 2) = 1 / 4 /\ Rabs (1 / 2) < 1 /\ 1 <= Rabs (-3).
Proof.
  assert (Rabs (1 / 2) = 1 / 2) as E by (rewrite Rabs_right; lra). split_and!.
  - destruct (C45_inside Wendland0 (1 / 2)) as [-> _]; [lra|]. rewrite E. unbody. field.
  - lra.
  - rewrite Rabs_left; lra.
Qed.

Print Assumptions C45_support.
Print Assumptions C45_even.
Print Assumptions C45_inside.
Print Assumptions C45_decreasing.
Print Assumptions C45_at_zero.
