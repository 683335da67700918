(** Rounding errors of the DenseBox grid, away from the faces of its cells (proof file). *)
From Coq Require Import Reals Lra SpecFloat.
From Flocq Require Import Core Relative Plus_error IEEE754.BinarySingleNaN.
From Verif Require Import Base GeomOps BoxModel MortonFloatModel BuildFloatModel IeeeSpec IeeeProof BuildFloatProof GridFloatModel.
From Coq Require Import Lra.
Local Open Scope R_scope.

(** ** Arithmetic *)
Lemma final_bound u w : 0 < u <= / 1000000 -> u <= w <= 1000 * u -> 
  ((1 - (w + 10 * u)) * (1 - (w + 10 * u)) * ((1 + u) * (1 + u) * (1 + u)) + u) * ((1 + 2 * w) * (1 + 7 * u)) <= 1.
Proof.
  intros Hu Hw. set (a := w + 10 * u).
  assert ((1 - a) * (1 - a) <= 1 - 1.998 * a) as H1 by (unfold a; nra).
  assert ((1 + u) * (1 + u) * (1 + u) <= 1 + 3.01 * u) as H2 by nra.
  assert (0 <= 1 - 1.998 * a) as H3 by (unfold a; lra).
  assert ((1 - a) * (1 - a) * ((1 + u) * (1 + u) * (1 + u)) <= (1 - 1.998 * a) * (1 + 3.01 * u)) as H4 by (apply Rmult_le_compat; nra).
  assert ((1 - 1.998 * a) * (1 + 3.01 * u) + u <= 1 - 1.998 * w - 15.97 * u) as H5 by (unfold a in *; nra).
  assert ((1 + 2 * w) * (1 + 7 * u) <= 1 + 2 * w + 7.02 * u) as H6 by nra.
  apply Rle_trans with ((1 - 1.998 * w - 15.97 * u) * (1 + 2 * w + 7.02 * u)); [apply Rmult_le_compat; nra|]. nra.
Qed.
Lemma pow_bound u k : 0 <= u -> INR k * u <= / 100 -> (1 + u) ^ k <= 1 + 2 * (INR k * u).
Proof.
  intros Hu. induction k as [|k IH]; intros Hk; [simpl; lra|]. rewrite S_INR in *. assert (0 <= INR k) by apply pos_INR.
  specialize (IH ltac:(nra)). simpl. apply Rle_trans with ((1 + u) * (1 + 2 * (INR k * u))); [apply Rmult_le_compat_l; lra|]. nra.
Qed.

Section Ops.
Context (prec emax : Z) {Hprec : FLX.Prec_gt_0 prec} {Hmax : Prec_lt_emax prec emax}.
Hypothesis big : (20 <= prec)%Z.
Hypothesis wide : (128 <= emax)%Z.
Notation M := (bpow radix2 emax).
Notation V := (V emax).
Notation rn := (rn prec emax).
Notation sat := (sat emax).
Notation number x := (ieee_number prec emax x = true).
Notation finite x := (ieee_finite prec emax x = true).
Notation u := (bpow radix2 (- prec)).
Notation eta := (bpow radix2 (2 - emax - prec)).

Lemma u_tiny : 0 < u <= / 1000000.
Proof. split; [apply bpow_gt_0|]. apply Rle_trans with (bpow radix2 (-20)); [apply bpow_le; lia|]. simpl. lra. Qed.
Lemma eta_tiny : 0 < eta <= u * bpow radix2 (-126).
Proof. split; [apply bpow_gt_0|]. rewrite <- bpow_plus. apply bpow_le. lia. Qed.
Lemma rn_bounds t : 0 <= t -> t * (1 - u) - eta <= rn t <= t * (1 + u) + eta.
Proof.
  intros Ht. destruct (error_N_FLT radix2 (3 - emax - prec) prec Hprec (fun x => negb (Z.even x)) t) as (e & et & He & Het & _ & E).
  assert (/ 2 * bpow radix2 (- prec + 1) = u) as Eu by (rewrite bpow_plus; simpl; lra).
  assert (/ 2 * bpow radix2 (3 - emax - prec) = eta) as Ee by (replace (3 - emax - prec)%Z with (2 - emax - prec + 1)%Z by lia; rewrite bpow_plus; simpl; lra).
  rewrite Eu in He. rewrite Ee in Het. apply Rabs_le_inv in He, Het.
  change (rn t) with (round radix2 (FLT_exp (3 - emax - prec) prec) (Znearest (fun x => negb (Z.even x))) t). rewrite E. split; nra.
Qed.
Lemma rn_id x : finite x -> rn (V x) = V x.
Proof. intros Hx. unfold IeeeProof.rn. apply round_generic; [typeclasses eauto|]. by apply format_V. Qed.
Lemma sat_abs t : Rabs (sat t) <= Rabs t.
Proof. pose proof (M_pos prec emax). unfold IeeeProof.sat, Rmax, Rmin, Rabs. repeat destruct Rle_dec; repeat destruct Rcase_abs; lra. Qed.
Lemma sat_le t : 0 <= t -> 0 <= sat t <= t.
Proof. intros H. pose proof (M_pos prec emax). unfold IeeeProof.sat, Rmax, Rmin. repeat destruct Rle_dec; lra. Qed.
Lemma rn_nonneg t : 0 <= t -> 0 <= rn t.
Proof. intros H. rewrite <- (rn_0 prec emax). by apply (rn_mono prec emax). Qed.

(** ** The distance *)
Lemma sub_bound x y B : finite x -> finite y -> Rabs (V y - V x) <= B -> number (SFsub prec emax y x) /\ Rabs (V (SFsub prec emax y x)) <= B * (1 + u).
Proof.
  intros Fx Fy HB. destruct (sub_finite prec emax y x Fy Fx) as [N E]. split; [done|]. rewrite E. eapply Rle_trans; [apply sat_abs|]. pose proof u_tiny as Hu.
  destruct (FLT_plus_error_N_ex radix2 (3 - emax - prec) prec (fun x => negb (Z.even x)) (V y) (- V x)) as (e1 & He1 & E1).
  { apply (format_V prec emax y Fy). } { apply generic_format_opp, (format_V prec emax x Fx). }
  change (rn (V y - V x)) with (round radix2 (FLT_exp (3 - emax - prec) prec) (Znearest (fun x => negb (Z.even x))) (V y + - V x)). rewrite E1, Rabs_mult.
  assert (Rabs e1 <= u) as He.
  { eapply Rle_trans; [exact He1|]. unfold u_ro. assert (/ 2 * bpow radix2 (- prec + 1) = u) as -> by (rewrite bpow_plus; simpl; lra).
    apply Rmult_le_reg_r with (1 + u); [lra|]. unfold Rdiv. rewrite Rmult_assoc, Rinv_l by lra. nra. }
  assert (Rabs (1 + e1) <= 1 + u) by (apply Rabs_le_inv in He; apply Rabs_le; lra).
  apply Rmult_le_compat; [apply Rabs_pos|apply Rabs_pos|exact HB|done].
Qed.
Lemma sum_bound A B ds : 0 <= B -> A = B * B * (1 + u) + 2 * eta -> Forall (fun d => number d /\ Rabs (V d) <= B) ds -> forall s, number s -> 0 <= V s ->
  let r := foldl (fun s d => SFadd prec emax s (SFmul prec emax d d)) s ds in number r /\ 0 <= V r <= (V s + INR (length ds) * A) * (1 + u) ^ length ds.
Proof.
  intros HB EA. pose proof u_tiny as Hu. pose proof eta_tiny as He. assert (0 <= A) as HA by (rewrite EA; nra).
  induction 1 as [|d ds [Nd Bd] _ IH]; intros s Ns Hs; cbv zeta; cbn [foldl length].
  - split; [done|]. simpl. lra.
  - destruct (sq_V prec emax d Nd) as [Nq Eq]. assert (0 <= V d * V d <= B * B) as Hd by (apply Rabs_le_inv in Bd; nra).
    assert (0 <= V (SFmul prec emax d d) <= A - eta) as Hq.
    { rewrite Eq. pose proof (sat_le _ (rn_nonneg _ (proj1 Hd))) as S1. pose proof (rn_bounds _ (proj1 Hd)) as R1. split; [lra|]. rewrite EA. nra. }
    pose proof (add_V prec emax s _ Ns Nq Hs (proj1 Hq)) as [Na Ea].
    assert (0 <= V (SFadd prec emax s (SFmul prec emax d d)) <= (V s + A) * (1 + u)) as Ha.
    { rewrite Ea. assert (0 <= V s + V (SFmul prec emax d d)) as Hp by lra. pose proof (sat_le _ (rn_nonneg _ Hp)) as S1. pose proof (rn_bounds _ Hp) as R1. split; [lra|]. nra. }
    destruct (IH _ Na (proj1 Ha)) as [N1 [B1 B2]]. split; [done|]. split; [done|]. eapply Rle_trans; [exact B2|].
    rewrite S_INR. simpl. assert (0 <= INR (length ds)) by apply pos_INR. assert (0 < (1 + u) ^ length ds) by (apply pow_lt; lra).
    rewrite <- Rmult_assoc. apply Rmult_le_compat_r; [lra|]. 
    assert (0 <= INR (length ds) * A) by (by apply Rmult_le_pos). nra.
Qed.
Lemma near_bound x y h eps c : (1 <= length x <= 1000)%nat -> length x = length y -> Forall (fun a => finite a) x -> Forall (fun a => finite a) y ->
  finite eps -> 0 < V eps <= bpow radix2 40 -> 0 < h -> bpow radix2 (-60) <= h -> INR (length x) * (h * h) <= V eps * V eps * (1 + 7 * u) -> c = INR (length x) + 10 ->
  Forall2 (fun a b => Rabs (V b - V a) <= h * (1 - c * u)) x y ->
  SFleb (distance_pp (FloatOps prec emax) x y) eps = true.
Proof.
  intros HD HL Fx Fy Fe He Hh Hh60 HDh Ec HR. pose proof u_tiny as Hu. pose proof eta_tiny as Het.
  set (D := length x) in *. assert (1 <= INR D <= 1000) as HDR by (split; [apply (le_INR 1); lia|replace 1000 with (INR 1000) by (rewrite INR_IZR_INZ; reflexivity); apply le_INR; lia]).
  set (ds := zip_with (fun x y => SFsub prec emax y x) x y).
  change (distance_pp (FloatOps prec emax) x y) with (SFsqrt prec emax (foldl (fun s d => SFadd prec emax s (SFmul prec emax d d)) (S754_zero false) ds)).
  assert (length ds = D) as Hlen by (unfold ds; rewrite zip_with_length; unfold D; lia).
  set (B := h * (1 - c * u) * (1 + u)).
  assert (0 <= 1 - c * u) as Hc by (rewrite Ec; nra).
  assert (0 <= B) as HB by (unfold B; apply Rmult_le_pos; [apply Rmult_le_pos|]; lra).
  assert (Forall (fun d => number d /\ Rabs (V d) <= B) ds) as Hds.
  { clear - HR Fx Fy big wide Hprec Hmax. unfold ds. clear ds. induction HR as [|a b x y HR HRs IH]; simpl; constructor.
    - apply Forall_cons in Fx as [Fa _], Fy as [Fb _]. by apply sub_bound.
    - apply Forall_cons in Fx as [_ Fx], Fy as [_ Fy]. by apply IH. }
  destruct (sum_bound _ B ds HB eq_refl Hds (S754_zero false) eq_refl) as [Nr [R0 R1]]; [simpl; lra|].
  set (r := foldl _ _ _) in *. rewrite Hlen in R1. replace (V (S754_zero false)) with 0 in R1 by (simpl; lra).
  assert (V r <= V eps * V eps) as HS.
  { eapply Rle_trans; [exact R1|]. rewrite Rplus_0_l. pose proof (pow_bound u D ltac:(lra) ltac:(nra)) as HP.
    assert (2 * eta <= u * (h * h)) as HE.
    { assert (bpow radix2 (-120) <= h * h) as Hhh by (replace (-120)%Z with (-60 + -60)%Z by lia; rewrite bpow_plus; pose proof (bpow_gt_0 radix2 (-60)); nra).
      assert (2 * bpow radix2 (-126) <= bpow radix2 (-120)) by (replace (-120)%Z with (-126 + 6)%Z by lia; rewrite (bpow_plus radix2 (-126) 6); pose proof (bpow_gt_0 radix2 (-126)); change (bpow radix2 6) with 64; lra).
      apply Rle_trans with (u * (2 * bpow radix2 (-126))); [lra|]. apply Rmult_le_compat_l; lra. }
    set (K := (1 - c * u) * (1 - c * u) * ((1 + u) * (1 + u) * (1 + u)) + u).
    assert (B * B * (1 + u) + 2 * eta <= h * h * K) as HA.
    { replace (B * B * (1 + u)) with (h * h * (K - u)) by (unfold B, K; ring). lra. }
    assert (0 <= K) as HK by (unfold K; assert (0 <= (1 - c * u) * (1 - c * u)) by (by apply Rmult_le_pos); assert (0 <= (1 + u) * (1 + u) * (1 + u)) by nra; nra).
    pose proof (final_bound u (INR D * u) Hu ltac:(nra)) as HF. replace (INR D * u + 10 * u) with (c * u) in HF by (rewrite Ec; ring). fold K in HF.
    assert (0 < (1 + u) ^ D) by (apply pow_lt; lra).
    apply Rle_trans with (INR D * (h * h * K) * (1 + 2 * (INR D * u))).
    { apply Rmult_le_compat; [|lra| |exact HP]; [apply Rmult_le_pos; [lra|]; nra|apply Rmult_le_compat_l; lra]. }
    replace (INR D * (h * h * K) * (1 + 2 * (INR D * u))) with (INR D * (h * h) * (K * (1 + 2 * (INR D * u)))) by ring.
    assert (0 <= K * (1 + 2 * (INR D * u))) as HK2 by nra.
    apply Rle_trans with (V eps * V eps * (1 + 7 * u) * (K * (1 + 2 * (INR D * u)))); [by apply Rmult_le_compat_r|].
    replace (V eps * V eps * (1 + 7 * u) * (K * (1 + 2 * (INR D * u)))) with (V eps * V eps * (K * ((1 + 2 * (INR D * u)) * (1 + 7 * u)))) by ring.
    rewrite <- (Rmult_1_r (V eps * V eps)) at 2. apply Rmult_le_compat_l; [nra|exact HF]. }
  pose proof (sqrt_V prec emax r Nr R0) as [N2 _]. apply (leb_V prec emax); [exact N2|by apply finite_number|].
  destruct (nonneg_inf prec emax r Nr R0) as [Fr|Er].
  - destruct (sqrt_finite prec emax r Fr R0) as [_ ->]. rewrite <- (rn_id eps Fe). apply (rn_mono prec emax).
    rewrite <- (sqrt_square (V eps)) by lra. by apply sqrt_le_1_alt.
  - exfalso. rewrite Er in HS. cbn [IeeeProof.V] in HS. assert (bpow radix2 81 <= M) by (apply bpow_le; lia).
    replace 81%Z with (40 + 41)%Z in * by lia. rewrite (bpow_plus radix2 40 41) in *. replace 41%Z with (40 + 1)%Z in * by lia. rewrite (bpow_plus radix2 40 1) in *. change (bpow radix2 1) with 2 in *. nra.
Qed.

(** ** The length of a cell *)
Lemma cell_length_bound D eps : (1 <= D <= 1000)%nat -> finite eps -> bpow radix2 (-40) <= V eps <= bpow radix2 40 ->
  let h := SFdiv prec emax eps (SFsqrt prec emax (binary_normalize prec emax (Z.of_nat D) 0 false)) in
  finite h /\ bpow radix2 (-60) <= V h <= bpow radix2 42 /\ INR D * (V h * V h) <= V eps * V eps * (1 + 7 * u).
Proof.
  intros HD Fe He. cbv zeta. pose proof u_tiny as Hu. pose proof eta_tiny as Het.
  assert (1 <= INR D <= 1000) as HDR by (split; [apply (le_INR 1); lia|replace 1000 with (INR 1000) by (rewrite INR_IZR_INZ; reflexivity); apply le_INR; lia]).
  destruct (of_int_V prec emax (Z.of_nat D)) as [Fd Vd].
  { rewrite Z.abs_eq by lia. apply Z.lt_le_trans with (2 ^ 20)%Z; [lia|]. apply Z.pow_le_mono_r; lia. }
  rewrite <- INR_IZR_INZ in Vd. destruct (sqrt_finite prec emax _ Fd ltac:(rewrite Vd; lra)) as [Fr Vr]. set (r := SFsqrt prec emax _) in *. rewrite Vd in Vr.
  set (s := R_sqrt.sqrt (INR D)) in *. assert (s * s = INR D) as Es by (apply sqrt_sqrt; lra). assert (0 <= s) as Hs0 by apply sqrt_pos. assert (1 <= s) as Hs1 by nra. assert (s <= 1000) as Hs2 by nra.
  assert (bpow radix2 (-126) <= bpow radix2 (-60) * / 1024) as Hb by (apply Rle_trans with (bpow radix2 (-70)); [apply bpow_le; lia|]; replace (-70)%Z with (-60 + -10)%Z by lia; rewrite bpow_plus; change (bpow radix2 (-10)) with (/ 1024); lra).
  assert (bpow radix2 (-60) <= / 1024) as Hb' by (apply Rle_trans with (bpow radix2 (-10)); [apply bpow_le; lia|]; change (bpow radix2 (-10)) with (/ 1024); lra).
  assert (0 < bpow radix2 (-60)) as Hb0 by apply bpow_gt_0.
  assert (eta <= u / 1000) as He1 by nra.
  pose proof (rn_bounds s Hs0) as Rs. rewrite <- Vr in Rs.
  assert (s * (1 - 1.01 * u) <= V r) as Hr1 by nra. assert (V r <= 1001) as Hr2 by nra. assert (0 < V r) as Hr0 by nra.
  assert (INR D * (1 - 2.02 * u) <= V r * V r) as Hrr.
  { apply Rle_trans with (s * (1 - 1.01 * u) * (s * (1 - 1.01 * u))); [|apply Rmult_le_compat; nra]. rewrite <- Es. nra. }
  destruct (div_finite prec emax eps r Fe Fr ltac:(lra)) as [Nh Vh]. set (h := SFdiv prec emax eps r) in *.
  set (t := V eps / V r) in *. assert (t * V r = V eps) as Et by (unfold t; field; lra).
  assert (0 < bpow radix2 (-40)) as Hb4 by apply bpow_gt_0.
  assert (0 < t) as Ht0 by (apply Rdiv_lt_0_compat; lra).
  assert (2 * bpow radix2 (-60) <= t) as Ht1.
  { apply Rmult_le_reg_r with (V r); [done|]. rewrite Et. apply Rle_trans with (bpow radix2 (-40)); [|lra]. replace (-40)%Z with (-60 + 20)%Z by lia. rewrite (bpow_plus radix2 (-60) 20). change (bpow radix2 20) with 1048576. nra. }
  assert (1 / 2 <= V r) as Hr3 by nra.
  assert (t <= 2 * bpow radix2 40) as Ht2 by (assert (0 < bpow radix2 40) by apply bpow_gt_0; nra).
  pose proof (rn_bounds t ltac:(lra)) as Rt.
  assert (eta <= 0.01 * u * t) as He2 by nra.
  assert (rn t <= t * (1 + 1.01 * u)) as Hh1 by nra.
  assert (bpow radix2 (-60) <= rn t) as Hh2 by nra.
  assert (bpow radix2 42 = 4 * bpow radix2 40) as E42 by (replace 42%Z with (40 + 2)%Z by lia; rewrite bpow_plus; change (bpow radix2 2) with 4; lra).
  assert (rn t <= bpow radix2 42) as Hh3 by nra.
  assert (bpow radix2 42 < M) as HM by (apply bpow_lt; lia). rewrite sat_id in Vh by lra.
  assert (finite h) as Fh by (apply (number_hi prec emax); [done|lra]). split; [done|]. rewrite Vh. split; [done|].
  set (w := rn t) in *. assert (w * V r <= V eps * (1 + 1.01 * u)) as Hw by (rewrite <- Et; nra). assert (0 <= w * V r) as Hw0 by nra.
  assert (w * V r * (w * V r) <= V eps * (1 + 1.01 * u) * (V eps * (1 + 1.01 * u))) as Hww by (apply Rmult_le_compat; lra).
  assert (INR D * (w * w) * (1 - 2.02 * u) <= V eps * V eps * ((1 + 1.01 * u) * (1 + 1.01 * u))) as H1.
  { apply Rle_trans with (w * V r * (w * V r)); [|lra]. replace (w * V r * (w * V r)) with (V r * V r * (w * w)) by ring. replace (INR D * (w * w) * (1 - 2.02 * u)) with (INR D * (1 - 2.02 * u) * (w * w)) by ring. apply Rmult_le_compat_r; [nra|done]. }
  apply Rmult_le_reg_r with (1 - 2.02 * u); [lra|]. eapply Rle_trans; [exact H1|]. rewrite (Rmult_assoc (V eps * V eps)). apply Rmult_le_compat_l; [nra|]. clear - Hu. nra.
Qed.

(** ** The corners of a cell *)
Lemma of_int_bounds i : (0 <= i < 2 ^ 32)%Z -> let x := binary_normalize prec emax i 0 false in finite x /\ 0 <= V x <= IZR i * (1 + u) + eta /\ IZR i * (1 - u) - eta <= V x /\ V x = rn (IZR i).
Proof.
  intros Hi. cbv zeta. destruct (normalize_V prec emax i 0 false) as [N E]. pose proof u_tiny as Hu. pose proof eta_tiny as Het.
  assert (F2R (Float radix2 i 0) = IZR i) as Ei by (unfold F2R; cbn [Fnum Fexp]; simpl; lra). rewrite Ei in E.
  assert (0 <= IZR i) as H0 by (apply (IZR_le 0); lia). pose proof (rn_bounds _ H0) as R. pose proof (rn_nonneg _ H0) as R0.
  assert (IZR i <= bpow radix2 32) as Hb by (change (bpow radix2 32) with (IZR (2 ^ 32)); apply IZR_le; lia).
  assert (bpow radix2 32 * 2 < M) as HM by (apply Rle_lt_trans with (bpow radix2 33); [change (bpow radix2 33) with (IZR (2 ^ 33)); change (bpow radix2 32) with (IZR (2 ^ 32)); rewrite <- (mult_IZR _ 2); apply IZR_le; lia|apply bpow_lt; lia]).
  assert (eta <= 1 / 100) by (assert (bpow radix2 (-126) <= 1) by (change 1 with (bpow radix2 0); apply bpow_le; lia); nra).
  assert (1 <= bpow radix2 32) as Hone by (change 1 with (bpow radix2 0); apply bpow_le; lia).
  assert (rn (IZR i) < M) as Hlt by nra.
  rewrite sat_id in E by lra. split; [apply (number_hi prec emax); [done|lra]|]. rewrite E. repeat split; lra.
Qed.
Lemma corner_bound m h i : finite m -> finite h -> (0 <= i < 2 ^ 32)%Z -> bpow radix2 (-60) <= V h <= bpow radix2 42 -> Rabs (V m) <= bpow radix2 60 ->
  let c := SFadd prec emax m (SFmul prec emax (binary_normalize prec emax i 0 false) h) in
  exists p, finite c /\ V c = rn (V m + p) /\ (i = 0%Z -> p = 0) /\ Rabs (p - IZR i * V h) <= 3 * u * (IZR i + 1) * V h.
Proof.
  intros Fm Fh Hi Hh Hm. cbv zeta. pose proof u_tiny as Hu. pose proof eta_tiny as Het.
  destruct (of_int_bounds i Hi) as (Fi & [Vi0 Vi1] & Vi2 & Vi3). set (x := binary_normalize prec emax i 0 false) in *.
  assert (0 < bpow radix2 (-60)) as Hb0 by apply bpow_gt_0. assert (0 <= IZR i) as H0 by (apply (IZR_le 0); lia).
  destruct (mul_finite prec emax x h Fi Fh) as [Np Vp]. set (p := SFmul prec emax x h) in *.
  assert (0 <= V x * V h) as Hxh by nra. pose proof (rn_bounds _ Hxh) as Rp. pose proof (rn_nonneg _ Hxh) as Rp0.
  assert (bpow radix2 (-126) <= bpow radix2 (-60) * / 1024) as Hb by (apply Rle_trans with (bpow radix2 (-70)); [apply bpow_le; lia|]; replace (-70)%Z with (-60 + -10)%Z by lia; rewrite bpow_plus; change (bpow radix2 (-10)) with (/ 1024); lra).
  assert (bpow radix2 (-60) <= / 1024) as Hb' by (apply Rle_trans with (bpow radix2 (-10)); [apply bpow_le; lia|]; change (bpow radix2 (-10)) with (/ 1024); lra).
  assert (eta <= u * V h / 1000) as He1 by nra. assert (eta <= u / 1000) as He2 by nra.
  assert (V x * V h <= IZR i * V h * (1 + u) + u * V h / 1000) as A1 by nra.
  assert (IZR i * V h * (1 - u) - u * V h / 1000 <= V x * V h) as A2 by nra.
  assert (0 <= IZR i * V h) as A0 by nra. set (T := IZR i * V h) in *.
  assert (Rabs (rn (V x * V h) - T) <= 3 * u * (IZR i + 1) * V h) as HE.
  { replace (3 * u * (IZR i + 1) * V h) with (3 * u * T + 3 * u * V h) by (unfold T; ring). set (X := V x * V h) in *. set (R := rn X) in *. assert (0 <= u * V h) by nra. assert (0 <= u * T) by nra.
    apply Rabs_le. split; nra. }
  assert (IZR i <= bpow radix2 32 - 1) as Hi32 by (change (bpow radix2 32) with (IZR (2 ^ 32)); rewrite <- minus_IZR; apply IZR_le; lia).
  assert (rn (V x * V h) <= bpow radix2 76) as Hr.
  { apply Rabs_le_inv in HE. assert (T + 3 * u * (IZR i + 1) * V h <= 4 * (bpow radix2 32 * bpow radix2 42)).
    - unfold T. assert (0 < bpow radix2 32) by apply bpow_gt_0. assert (IZR i * V h <= bpow radix2 32 * bpow radix2 42) by (apply Rmult_le_compat; lra).
      assert ((IZR i + 1) * V h <= bpow radix2 32 * bpow radix2 42) by (apply Rmult_le_compat; lra). nra.
    - rewrite <- bpow_plus in H. replace 76%Z with (32 + 42 + 2)%Z by lia. rewrite (bpow_plus radix2 (32 + 42) 2). change (bpow radix2 2) with 4. lra. }
  assert (bpow radix2 78 <= M) as HM by (apply bpow_le; lia). assert (bpow radix2 76 < bpow radix2 78) as H76 by (apply bpow_lt; lia).
  rewrite sat_id in Vp by lra.
  assert (finite p) as Fp by (apply (number_hi prec emax); [done|lra]).
  destruct (add_finite prec emax m p Fm Fp) as [Nc Vc]. exists (V p).
  assert (Rabs (V m + V p) <= bpow radix2 77) as Hs.
  { eapply Rle_trans; [apply Rabs_triang|]. rewrite (Rabs_right (V p)) by lra. assert (bpow radix2 60 <= bpow radix2 76) by (apply bpow_le; lia).
    replace 77%Z with (76 + 1)%Z by lia. rewrite (bpow_plus radix2 76 1). change (bpow radix2 1) with 2. lra. }
  assert (Rabs (rn (V m + V p)) <= bpow radix2 77) as Hs'.
  { unfold IeeeProof.rn. apply abs_round_le_generic; [typeclasses eauto..| |exact Hs]. 
    change (SpecFloat.fexp prec emax) with (FLT_exp (3 - emax - prec) prec). apply generic_format_FLT_bpow; [done|]. unfold FLX.Prec_gt_0 in *. lia. }
  assert (bpow radix2 77 < M) as H77 by (apply bpow_lt; lia). apply Rabs_le_inv in Hs'.
  rewrite sat_id in Vc by lra. split; [apply (number_hi prec emax); [done|lra]|]. split; [done|]. split.
  - intros ->. rewrite Vp, Vi3. rewrite (rn_0 prec emax), Rmult_0_l. apply (rn_0 prec emax).
  - rewrite Vp. exact HE.
Qed.
End Ops.
