(** Definedness and monotonicity of the floating-point part of the build (proof file). *)
From Coq Require Import Reals Lra SpecFloat.
From Flocq Require Import Core Plus_error IEEE754.BinarySingleNaN.
From Verif Require Import Base GeomOps BoxModel BoxSpec MortonFloatModel BuildFloatModel IeeeSpec IeeeProof.
From Coq Require Import Lra.
Local Open Scope R_scope.

Section Ops.
Context (prec emax : Z) {Hprec : FLX.Prec_gt_0 prec} {Hmax : Prec_lt_emax prec emax}.
Notation M := (bpow radix2 emax).
Notation V := (V emax).
Notation rn := (rn prec emax).
Notation sat := (sat emax).
Notation number x := (ieee_number prec emax x = true).
Notation finite x := (ieee_finite prec emax x = true).
Notation bf := (binary_float prec emax).

Lemma rnm x y : x <= y -> rn x <= rn y.
Proof. apply (rn_mono prec emax). Qed.
Lemma number_hi x : number x -> (finite x <-> - M < V x < M).
Proof.
  intros Hx. split; [by apply V_finite|]. intros H. destruct (number_cases prec emax x Hx) as [?|[-> | ->]]; [done|exfalso; cbn [IeeeProof.V] in H; lra..].
Qed.
Lemma number_inf x : number x -> V x = M -> x = S754_infinity false.
Proof. intros Hx E. pose proof (M_pos prec emax). destruct (number_cases prec emax x Hx) as [Hf|[-> | ->]]; [apply (V_finite prec emax) in Hf; lra|exfalso; cbn [IeeeProof.V] in E; lra|done]. Qed.
Lemma number_ninf x : number x -> V x = - M -> x = S754_infinity true.
Proof. intros Hx E. pose proof (M_pos prec emax). destruct (number_cases prec emax x Hx) as [Hf|[-> | ->]]; [apply (V_finite prec emax) in Hf; lra|done|exfalso; cbn [IeeeProof.V] in E; lra]. Qed.
Lemma format_V x : finite x -> generic_format radix2 (SpecFloat.fexp prec emax) (V x).
Proof. intros (b & <- & Hb)%finite_B. rewrite (V_B prec emax) by done. apply generic_format_B2R. Qed.
Lemma rn_sub_pos a b : finite a -> finite b -> V a < V b -> 0 < rn (V b - V a).
Proof.
  intros Ha Hb H. destruct (Rle_lt_or_eq_dec 0 (rn (V b - V a))) as [?|E]; [rewrite <- (rn_0 prec emax) at 1; apply rnm; lra|done|]. exfalso.
  apply (round_plus_neq_0 radix2 (SpecFloat.fexp prec emax) ZnearestE (V b) (- V a)); [by apply format_V|by apply generic_format_opp, format_V|lra|].
  fold (rn (V b + - V a)). replace (V b + - V a) with (V b - V a) by ring. lra.
Qed.
Lemma sat_pos t : 0 < t -> 0 < sat t.
Proof. intros H. pose proof (M_pos prec emax). unfold IeeeProof.sat, Rmax, Rmin. repeat destruct Rle_dec; lra. Qed.

(** x - a, x / d, x * d for a finite a and a positive finite d, x any number: a number, monotone in x. *)
Lemma sub_number x a : number x -> finite a -> number (SFsub prec emax x a).
Proof.
  intros Hx Ha. destruct (number_cases prec emax x Hx) as [H|[-> | ->]]; [by apply (sub_finite prec emax)|..]; destruct a; try done.
Qed.
Lemma sub_mono x y a : number x -> number y -> finite a -> V x <= V y -> V (SFsub prec emax x a) <= V (SFsub prec emax y a).
Proof.
  intros Hx Hy Ha H. pose proof (sub_number x a Hx Ha) as Nx. pose proof (sub_number y a Hy Ha) as Ny. pose proof (M_pos prec emax).
  pose proof (V_number prec emax _ Nx) as Bx. pose proof (V_number prec emax _ Ny) as By.
  destruct (number_cases prec emax x Hx) as [Fx|[-> | ->]], (number_cases prec emax y Hy) as [Fy|[-> | ->]];
    try (replace (SFsub prec emax (S754_infinity false) a) with (S754_infinity false) by (by destruct a));
    try (replace (SFsub prec emax (S754_infinity true) a) with (S754_infinity true) by (by destruct a));
    try (apply (V_finite prec emax) in Fx); try (apply (V_finite prec emax) in Fy); cbn [IeeeProof.V] in *; try lra.
  destruct (sub_finite prec emax x a) as [_ ->]; [by apply number_hi|done|]. destruct (sub_finite prec emax y a) as [_ ->]; [by apply number_hi|done|].
  apply sat_mono, rnm. lra.
Qed.
Lemma pos_finite d : finite d -> 0 < V d -> exists m e, d = S754_finite false m e.
Proof. intros Fd H. destruct d as [|[]| |[] m e]; cbn [IeeeProof.V SF2R cond_Zopp] in H; try lra; try done; [|eauto]. exfalso. pose proof (F2R_lt_0 radix2 (Float radix2 (Z.neg m) e) eq_refl) as Hn. change (0 < F2R (Float radix2 (Z.neg m) e)) in H. lra. Qed.
Lemma div_inf s m e : SFdiv prec emax (S754_infinity s) (S754_finite false m e) = S754_infinity s.
Proof. by destruct s. Qed.
Lemma mul_inf s m e : SFmul prec emax (S754_infinity s) (S754_finite false m e) = S754_infinity s.
Proof. by destruct s. Qed.
Lemma div_number x d : number x -> finite d -> 0 < V d -> number (SFdiv prec emax x d).
Proof.
  intros Hx Hd H. destruct (number_cases prec emax x Hx) as [Fx|[-> | ->]]; [apply (div_finite prec emax); [done|done|lra]|..]; destruct (pos_finite d Hd H) as (m & e & ->); done.
Qed.
Lemma div_mono x y d : number x -> number y -> finite d -> 0 < V d -> V x <= V y -> V (SFdiv prec emax x d) <= V (SFdiv prec emax y d).
Proof.
  intros Hx Hy Hd H Hxy. pose proof (V_number prec emax _ (div_number x d Hx Hd H)) as Bx. pose proof (V_number prec emax _ (div_number y d Hy Hd H)) as By. pose proof (M_pos prec emax).
  destruct (number_cases prec emax x Hx) as [Fx|[-> | ->]]; [destruct (number_cases prec emax y Hy) as [Fy|[-> | ->]]|..].
  - destruct (div_finite prec emax x d Fx Hd ltac:(lra)) as [_ ->]. destruct (div_finite prec emax y d Fy Hd ltac:(lra)) as [_ ->]. apply sat_mono, rnm.
    apply Rmult_le_compat_r; [|done]. left. by apply Rinv_0_lt_compat.
  - apply (V_finite prec emax) in Fx. cbn [IeeeProof.V] in Hxy. lra.
  - destruct (pos_finite d Hd H) as (m & e & ->). rewrite ?div_inf, ?mul_inf in *. cbn [IeeeProof.V] in *. lra.
  - destruct (pos_finite d Hd H) as (m & e & ->). rewrite ?div_inf, ?mul_inf in *. cbn [IeeeProof.V] in *. lra.
  - cbn [IeeeProof.V] in Hxy. apply (V_number prec emax) in Hy as Hy'. assert (y = S754_infinity false) as -> by (apply number_inf; [done|lra]). destruct (pos_finite d Hd H) as (m & e & ->). rewrite ?div_inf, ?mul_inf in *. lra.
Qed.
Lemma mul_number x d : number x -> finite d -> 0 < V d -> number (SFmul prec emax x d).
Proof.
  intros Hx Hd H. destruct (number_cases prec emax x Hx) as [Fx|[-> | ->]]; [by apply (mul_finite prec emax)|..]; destruct (pos_finite d Hd H) as (m & e & ->); done.
Qed.
Lemma mul_mono x y d : number x -> number y -> finite d -> 0 < V d -> V x <= V y -> V (SFmul prec emax x d) <= V (SFmul prec emax y d).
Proof.
  intros Hx Hy Hd H Hxy. pose proof (V_number prec emax _ (mul_number x d Hx Hd H)) as Bx. pose proof (V_number prec emax _ (mul_number y d Hy Hd H)) as By. pose proof (M_pos prec emax).
  destruct (number_cases prec emax x Hx) as [Fx|[-> | ->]]; [destruct (number_cases prec emax y Hy) as [Fy|[-> | ->]]|..].
  - destruct (mul_finite prec emax x d Fx Hd) as [_ ->]. destruct (mul_finite prec emax y d Fy Hd) as [_ ->]. apply sat_mono, rnm.
    apply Rmult_le_compat_r; [|done]. lra.
  - apply (V_finite prec emax) in Fx. cbn [IeeeProof.V] in Hxy. lra.
  - destruct (pos_finite d Hd H) as (m & e & ->). rewrite ?div_inf, ?mul_inf in *. cbn [IeeeProof.V] in *. lra.
  - destruct (pos_finite d Hd H) as (m & e & ->). rewrite ?div_inf, ?mul_inf in *. cbn [IeeeProof.V] in *. lra.
  - cbn [IeeeProof.V] in Hxy. apply (V_number prec emax) in Hy as Hy'. assert (y = S754_infinity false) as -> by (apply number_inf; [done|lra]). destruct (pos_finite d Hd H) as (m & e & ->). rewrite ?div_inf, ?mul_inf in *. lra.
Qed.

(** Conversion to the format. *)
Lemma normalize_V m e s : number (binary_normalize prec emax m e s) /\ V (binary_normalize prec emax m e s) = sat (rn (F2R (Float radix2 m e))).
Proof.
  rewrite (binary_normalize_equiv prec emax).
  enough (is_nan (BinarySingleNaN.binary_normalize prec emax Hprec Hmax mode_NE m e s) = false /\ V (B2SF (BinarySingleNaN.binary_normalize prec emax Hprec Hmax mode_NE m e s)) = sat (rn (F2R (Float radix2 m e)))) as [H1 H2]
    by (split; [by apply B_number|done]).
  pose proof (binary_normalize_correct prec emax Hprec Hmax mode_NE m e s) as H. cbn zeta in H. simpl round_mode in H. fold (rn (F2R (Float radix2 m e))) in H. destruct (Rlt_bool_spec (Rabs (rn (F2R (Float radix2 m e)))) M) as [Hlt|Hge].
  - destruct H as (H1 & H2 & _). by apply (exact_V prec emax).
  - apply (overflow_V prec emax _ _ _ H Hge); intros E; [destruct (Rlt_bool_spec (F2R (Float radix2 m e)) 0); [lra|done]|destruct (Rlt_bool_spec (F2R (Float radix2 m e)) 0); [done|lra]].
Qed.
Lemma of_int_V z : (Z.abs z < 2 ^ prec)%Z -> finite (binary_normalize prec emax z 0 false) /\ V (binary_normalize prec emax z 0 false) = IZR z.
Proof.
  intros Hz. destruct (normalize_V z 0 false) as [Hn HV]. pose proof (M_pos prec emax).
  assert (F2R (Float radix2 z 0) = IZR z) as E by (unfold F2R; cbn [Fnum Fexp]; simpl; lra). rewrite E in HV.
  assert (generic_format radix2 (SpecFloat.fexp prec emax) (IZR z)) as Hf.
  { change (SpecFloat.fexp prec emax) with (FLT.FLT_exp (3 - emax - prec) prec). apply generic_format_FLT. apply (FLT_spec radix2 (3 - emax - prec) prec (IZR z) (Float radix2 z 0)); [by symmetry|exact Hz|].
    unfold Prec_lt_emax, FLX.Prec_gt_0 in *. cbn [Fexp]. lia. }
  unfold IeeeProof.rn in HV. rewrite round_generic in HV by (typeclasses eauto || done).
  assert (- M < IZR z < M) as Hb.
  { assert (Rabs (IZR z) < M) as Hb; [|apply Rabs_lt_inv in Hb; lra]. rewrite <- abs_IZR. eapply Rlt_le_trans; [apply IZR_lt, Hz|]. change 2%Z with (radix_val radix2). rewrite IZR_Zpower by (unfold FLX.Prec_gt_0 in *; lia). apply bpow_le.
    unfold Prec_lt_emax in *. lia. }
  rewrite sat_id in HV by lra. split; [|done]. apply number_hi; [done|]. lra.
Qed.
End Ops.

Class OkFmt (f : fmt) : Prop := { ok_prec : FLX.Prec_gt_0 (f_prec f); ok_emax : Prec_lt_emax (f_prec f) (f_emax f) }.
#[global] Existing Instance ok_prec. #[global] Existing Instance ok_emax.
#[global] Instance ok32 : OkFmt binary32. Proof. done. Qed.
#[global] Instance ok64 : OkFmt binary64. Proof. done. Qed.
Notation Vf f x := (V (f_emax f) x).
Notation fnumber f x := (ieee_number (f_prec f) (f_emax f) x = true).
Notation ffinite f x := (ieee_finite (f_prec f) (f_emax f) x = true).

Lemma convert_finite f {Hf : OkFmt f} g x : OkFmt g -> ffinite g x -> fnumber f (convert f x) /\ Vf f (convert f x) = sat (f_emax f) (rn (f_prec f) (f_emax f) (Vf g x)).
Proof.
  intros Hg Hx. destruct x as [s|s| |s m e]; try done; cbn [convert].
  - split; [done|]. cbn [V SF2R]. by rewrite (rn_0 (f_prec f) (f_emax f)), (sat_0 (f_prec f) (f_emax f)).
  - apply normalize_V; apply Hf.
Qed.
Lemma convert_number f {Hf : OkFmt f} g x : OkFmt g -> fnumber g x -> fnumber f (convert f x).
Proof. intros Hg Hx. destruct (number_cases _ _ x Hx) as [Fx|[-> | ->]]; [by apply (convert_finite f g)|done|done]. Qed.
Lemma convert_mono f {Hf : OkFmt f} g x y : OkFmt g -> fnumber g x -> fnumber g y -> Vf g x <= Vf g y -> Vf f (convert f x) <= Vf f (convert f y).
Proof.
  intros Hg Hx Hy H. pose proof (V_number _ _ _ (convert_number f g x Hg Hx)) as Bx. pose proof (V_number _ _ _ (convert_number f g y Hg Hy)) as By.
  pose proof (M_pos (f_prec g) (f_emax g)). destruct (number_cases _ _ x Hx) as [Fx|[-> | ->]]; [destruct (number_cases _ _ y Hy) as [Fy|[-> | ->]]|..].
  - destruct (convert_finite f g x Hg Fx) as [_ ->]. destruct (convert_finite f g y Hg Fy) as [_ ->]. by apply sat_mono, (rn_mono (f_prec f) (f_emax f)).
  - apply (V_finite (f_prec g) (f_emax g)) in Fx. cbn [V] in H. lra.
  - cbn [V convert] in *. lra.
  - cbn [V convert] in *. lra.
  - cbn [V] in H. assert (y = S754_infinity false) as -> by (apply (number_inf (f_prec g) (f_emax g)); [done|]; pose proof (V_number _ _ _ Hy); lra). lra.
Qed.
Lemma clamp_V f {Hf : OkFmt f} v lo hi : fnumber f v -> ffinite f lo -> ffinite f hi -> Vf f lo <= Vf f hi ->
  ffinite f (clamp v lo hi) /\ Vf f (clamp v lo hi) = Rmax (Vf f lo) (Rmin (Vf f hi) (Vf f v)).
Proof.
  intros Hv Hlo Hhi H. pose proof (finite_number _ _ _ Hlo) as Nlo. pose proof (finite_number _ _ _ Hhi) as Nhi. unfold clamp.
  destruct (SFltb v lo) eqn:E1; [|destruct (SFltb hi v) eqn:E2].
  - apply (ltb_V (f_prec f) (f_emax f)) in E1; [|done..]. split; [done|]. rewrite Rmin_right by lra. rewrite Rmax_left; lra.
  - apply (ltb_V (f_prec f) (f_emax f)) in E2; [|done..]. split; [done|]. rewrite Rmin_left by lra. rewrite Rmax_right; lra.
  - apply (ltb_V_false (f_prec f) (f_emax f)) in E1; [|done..]. apply (ltb_V_false (f_prec f) (f_emax f)) in E2; [|done..]. split.
    + apply (number_hi (f_prec f) (f_emax f)); [done|]. apply (V_finite (f_prec f) (f_emax f)) in Hlo. apply (V_finite (f_prec f) (f_emax f)) in Hhi. lra.
    + rewrite Rmin_right by lra. rewrite Rmax_right; lra.
Qed.
Lemma to_unsigned_V f {Hf : OkFmt f} x w : ffinite f x -> 0 <= Vf f x < IZR (2 ^ w) -> to_unsigned w x = Some (Z.to_N (Zfloor (Vf f x))).
Proof.
  intros Hx H. destruct x as [s|s| |s m e]; try done; cbn [to_unsigned V SF2R] in *.
  - change 0 with (IZR 0). by rewrite Zfloor_IZR.
  - destruct s.
    { exfalso. pose proof (F2R_lt_0 radix2 (Float radix2 (Z.neg m) e) eq_refl) as Hn. change (0 <= F2R (Float radix2 (Z.neg m) e) < IZR (2 ^ w)) in H. lra. }
    cbn [cond_Zopp] in *. assert (Zfloor (F2R (Float radix2 (Z.pos m) e)) = if (e <? 0)%Z then (Z.pos m / 2 ^ (- e))%Z else (Z.pos m * 2 ^ e)%Z) as E.
    { unfold F2R. cbn [Fnum Fexp]. destruct (Z.ltb_spec e 0) as [He|He].
      - rewrite <- Zfloor_div by (apply Z.pow_nonzero; lia). f_equal. unfold Rdiv. f_equal. change 2%Z with (radix_val radix2). rewrite IZR_Zpower by lia. rewrite <- bpow_opp. f_equal. lia.
      - rewrite <- (Zfloor_IZR (Z.pos m * 2 ^ e)). f_equal. rewrite mult_IZR. f_equal. change 2%Z with (radix_val radix2). by rewrite IZR_Zpower by lia. }
    rewrite <- E. assert (Zfloor (F2R (Float radix2 (Z.pos m) e)) < 2 ^ w)%Z as Hlt.
    { apply lt_IZR. eapply Rle_lt_trans; [apply Zfloor_lb|]. apply H. }
    by apply Z.ltb_lt in Hlt as ->.
Qed.

Section Cell.
Context (f fl df : fmt) {Hf : OkFmt f} {Hfl : OkFmt fl} {Hdf : OkFmt df} (Nb : Z) (HN1 : (1 <= Nb)%Z) (HN2 : (Nb < 2 ^ f_prec fl)%Z) (HN3 : (Nb < 2 ^ f_prec df)%Z) (HN4 : (Nb <= 2 ^ 64)%Z).
Definition cell (x : spec_float) : option N :=
  to_unsigned 64 (convert df (clamp (fmul fl (convert fl x) (of_int fl Nb)) (of_int fl 0) (of_int fl (Nb - 1)))).
Definition clamped x := clamp (fmul fl (convert fl x) (of_int fl Nb)) (of_int fl 0) (of_int fl (Nb - 1)).
Lemma clamped_ok x : fnumber f x -> ffinite fl (clamped x) /\ 0 <= Vf fl (clamped x) <= IZR (Nb - 1).
Proof.
  intros Hx. destruct (of_int_V (f_prec fl) (f_emax fl) Nb ltac:(lia)) as [FN VN]. destruct (of_int_V (f_prec fl) (f_emax fl) (Nb - 1) ltac:(lia)) as [FM VM].
  destruct (of_int_V (f_prec fl) (f_emax fl) 0 ltac:(rewrite Z.abs_0; lia)) as [F0 V0]. assert (0 <= IZR (Nb - 1)) by (apply IZR_le; lia).
  destruct (clamp_V fl (fmul fl (convert fl x) (of_int fl Nb)) (of_int fl 0) (of_int fl (Nb - 1))) as [H1 H2].
  - apply (mul_number (f_prec fl) (f_emax fl)); [by apply (convert_number fl f)|done|]. unfold of_int. rewrite VN. apply IZR_lt. lia.
  - done.
  - done.
  - unfold of_int. rewrite V0, VM. lra.
  - split; [done|]. unfold clamped. rewrite H2. unfold of_int. rewrite V0, VM. unfold Rmax, Rmin. repeat destruct Rle_dec; lra.
Qed.
Lemma clamped_mono x y : fnumber f x -> fnumber f y -> Vf f x <= Vf f y -> Vf fl (clamped x) <= Vf fl (clamped y).
Proof.
  intros Hx Hy H. destruct (of_int_V (f_prec fl) (f_emax fl) Nb ltac:(lia)) as [FN VN]. destruct (of_int_V (f_prec fl) (f_emax fl) (Nb - 1) ltac:(lia)) as [FM VM].
  destruct (of_int_V (f_prec fl) (f_emax fl) 0 ltac:(rewrite Z.abs_0; lia)) as [F0 V0]. assert (0 <= IZR (Nb - 1)) by (apply IZR_le; lia).
  assert (0 < Vf fl (of_int fl Nb)) as HNp by (unfold of_int; rewrite VN; apply IZR_lt; lia).
  pose proof (convert_number fl f x Hf Hx) as Cx. pose proof (convert_number fl f y Hf Hy) as Cy. pose proof (convert_mono fl f x y Hf Hx Hy H) as HC.
  unfold clamped. destruct (clamp_V fl (fmul fl (convert fl x) (of_int fl Nb)) (of_int fl 0) (of_int fl (Nb - 1))) as [_ ->];
    [by apply (mul_number (f_prec fl) (f_emax fl))|done|done|unfold of_int; rewrite V0, VM; lra|].
  destruct (clamp_V fl (fmul fl (convert fl y) (of_int fl Nb)) (of_int fl 0) (of_int fl (Nb - 1))) as [_ ->];
    [by apply (mul_number (f_prec fl) (f_emax fl))|done|done|unfold of_int; rewrite V0, VM; lra|].
  apply Rle_max_compat_l, Rle_min_compat_l. by apply (mul_mono (f_prec fl) (f_emax fl)).
Qed.
Lemma narrowed_ok x : fnumber f x -> ffinite df (convert df (clamped x)) /\ 0 <= Vf df (convert df (clamped x)) <= IZR (Nb - 1).
Proof.
  intros Hx. destruct (clamped_ok x Hx) as [H1 H2]. destruct (convert_finite df fl (clamped x) Hfl H1) as [H3 H4].
  destruct (of_int_V (f_prec df) (f_emax df) (Nb - 1) ltac:(lia)) as [FM VM].
  assert (0 <= Vf df (convert df (clamped x)) <= IZR (Nb - 1)) as HB.
  { split; rewrite H4.
    - apply (sat_rn_nonneg (f_prec df) (f_emax df)). lra.
    - rewrite <- VM. destruct (normalize_V (f_prec df) (f_emax df) (Nb - 1) 0 false) as [_ ->]. apply sat_mono, (rn_mono (f_prec df) (f_emax df)).
      unfold F2R. cbn [Fnum Fexp]. rewrite Rmult_1_r. lra. }
  split; [|done]. apply (number_hi (f_prec df) (f_emax df)); [done|]. apply (V_finite (f_prec df) (f_emax df)) in FM. rewrite VM in FM. pose proof (M_pos (f_prec df) (f_emax df)). lra.
Qed.
Lemma cell_some x : fnumber f x -> cell x = Some (Z.to_N (Zfloor (Vf df (convert df (clamped x))))) /\ (0 <= Zfloor (Vf df (convert df (clamped x))) < Nb)%Z.
Proof.
  intros Hx. destruct (narrowed_ok x Hx) as [H1 [H2 H3]]. split.
  - apply (to_unsigned_V df); [done|]. split; [done|]. eapply Rle_lt_trans; [exact H3|]. apply IZR_lt. lia.
  - split; [by apply Zfloor_lub|]. apply lt_IZR. eapply Rle_lt_trans; [apply Zfloor_lb|]. eapply Rle_lt_trans; [exact H3|]. apply IZR_lt. lia.
Qed.
Lemma cell_mono x y : fnumber f x -> fnumber f y -> Vf f x <= Vf f y -> (Zfloor (Vf df (convert df (clamped x))) <= Zfloor (Vf df (convert df (clamped y))))%Z.
Proof.
  intros Hx Hy H. apply Zfloor_le. apply (convert_mono df fl); [done|..]; try (apply finite_number; by apply clamped_ok). by apply clamped_mono.
Qed.
End Cell.

Lemma cell64_cases f DIM : (24 <= f_prec f)%Z -> OkFmt f -> (2 <= DIM <= 10)%nat -> exists fl df, OkFmt fl /\ OkFmt df /\
  (1 <= 2 ^ Z.of_nat (bits64 DIM))%Z /\ (2 ^ Z.of_nat (bits64 DIM) < 2 ^ f_prec fl)%Z /\ (2 ^ Z.of_nat (bits64 DIM) < 2 ^ f_prec df)%Z /\ (2 ^ Z.of_nat (bits64 DIM) <= 2 ^ 64)%Z /\
  forall x, cell64 f DIM x = cell fl df (2 ^ Z.of_nat (bits64 DIM)) x.
Proof.
  intros H24 Hf HD. assert (DIM = 2 \/ (16777217 <? 2 ^ Z.of_nat (bits64 DIM))%Z = false /\ (1 <= 2 ^ Z.of_nat (bits64 DIM) < 2 ^ 24)%Z)%nat as [-> |[E HB]].
  { do 2 (destruct DIM as [|DIM]; [lia|]). destruct DIM as [|DIM]; [by left|right]. do 8 (destruct DIM as [|DIM]; [by vm_compute|]). lia. }
  - exists binary64, binary64. split; [apply _|]. split; [apply _|]. do 4 (split; [by vm_compute|]). done.
  - exists f, binary32. split; [done|]. split; [apply _|]. split; [lia|]. assert (2 ^ 24 <= 2 ^ f_prec f)%Z by (apply Z.pow_le_mono_r; lia). change (2 ^ 64)%Z with (2 ^ 24 * 2 ^ 40)%Z. cbn [f_prec binary32]. split; [lia|]. split; [lia|]. split; [lia|].
    intros x. unfold cell64. by rewrite E.
Qed.
Lemma cell64_ok f DIM : (24 <= f_prec f)%Z -> OkFmt f -> (2 <= DIM <= 10)%nat -> exists F : spec_float -> Z,
  (forall x, fnumber f x -> cell64 f DIM x = Some (Z.to_N (F x)) /\ (0 <= F x < 2 ^ Z.of_nat (bits64 DIM))%Z) /\
  (forall x y, fnumber f x -> fnumber f y -> Vf f x <= Vf f y -> (F x <= F y)%Z).
Proof.
  intros H24 Hf HD. destruct (cell64_cases f DIM H24 Hf HD) as (fl & df & Hfl & Hdf & H1 & H2 & H3 & H4 & E).
  exists (fun x => Zfloor (Vf df (convert df (clamped fl (2 ^ Z.of_nat (bits64 DIM)) x)))). split.
  - intros x Hx. rewrite E. by apply (cell_some f fl df _ H1 H2 H3 H4).
  - intros x y. by apply (cell_mono f fl df _ H1 H2).
Qed.
Lemma cell64_nan f DIM : (24 <= f_prec f)%Z -> OkFmt f -> (2 <= DIM <= 10)%nat -> cell64 f DIM S754_nan = None.
Proof. intros H24 Hf HD. destruct (cell64_cases f DIM H24 Hf HD) as (fl & df & _ & _ & _ & _ & _ & _ & E). rewrite E. unfold cell. cbn [convert]. unfold fmul. replace (SFmul (f_prec fl) (f_emax fl) S754_nan (of_int fl (2 ^ Z.of_nat (bits64 DIM)))) with S754_nan by (by destruct (of_int _ _)). cbn [clamp]. unfold clamp. replace (SFltb S754_nan (of_int fl 0)) with false by (by destruct (of_int _ _)). replace (SFltb (of_int fl (2 ^ Z.of_nat (bits64 DIM) - 1)) S754_nan) with false by (by destruct (of_int _ _) as [|[]| |]). done. Qed.

Section Scale.
Context (f : fmt) {Hf : OkFmt f}.
Notation sub := (SFsub (f_prec f) (f_emax f)).
Definition Extent (a b : spec_float) : Prop := ffinite f a /\ ffinite f b /\ Vf f a <= Vf f b.
Lemma scale_cases a b x : Extent a b -> (Vf f a = Vf f b /\ scale1 f a b x = S754_zero false) \/
  (0 < Vf f (sub b a) /\ Vf f a < Vf f b /\ scale1 f a b x = SFdiv (f_prec f) (f_emax f) (sub x a) (sub b a)).
Proof.
  intros (Fa & Fb & H). unfold scale1. pose proof (finite_number _ _ _ Fa) as Na. pose proof (finite_number _ _ _ Fb) as Nb. destruct (SFeqb a b) eqn:E; cbn [negb].
  - left. split; [|done]. by apply (eqb_V (f_prec f) (f_emax f)) in E.
  - right. assert (Vf f a <> Vf f b) as Hne by (intros E'; apply (eqb_V (f_prec f) (f_emax f)) in E'; [congruence|done..]). split; [|split; [lra|done]].
    destruct (sub_finite (f_prec f) (f_emax f) b a Fb Fa) as [_ ->]. apply (sat_pos (f_prec f) (f_emax f)), (rn_sub_pos (f_prec f) (f_emax f)); [done|done|lra].
Qed.
Lemma scale_number a b x : Extent a b -> ffinite f (sub b a) -> fnumber f x -> fnumber f (scale1 f a b x).
Proof.
  intros HE Hd Hx. destruct (scale_cases a b x HE) as [[_ ->]|(H1 & _ & ->)]; [done|]. destruct HE as (Fa & Fb & H).
  apply (div_number (f_prec f) (f_emax f)); [|done|done]. by apply (sub_number (f_prec f) (f_emax f)).
Qed.
Lemma scale_mono a b x y : Extent a b -> ffinite f (sub b a) -> fnumber f x -> fnumber f y -> Vf f x <= Vf f y -> Vf f (scale1 f a b x) <= Vf f (scale1 f a b y).
Proof.
  intros HE Hd Hx Hy H. destruct (scale_cases a b x HE) as [[E ->]|(H1 & H2 & ->)], (scale_cases a b y HE) as [[E' ->]|(_ & H2' & ->)]; try lra.
  destruct HE as (Fa & Fb & _). apply (div_mono (f_prec f) (f_emax f)); try done; try (by apply (sub_number (f_prec f) (f_emax f))). by apply (sub_mono (f_prec f) (f_emax f)).
Qed.
Lemma scale_nan a b x : Extent a b -> ieee_finite (f_prec f) (f_emax f) (sub b a) = false -> ffinite f x -> Vf f x = Vf f b -> scale1 f a b x = S754_nan.
Proof.
  intros HE Hd Fx Hx. destruct HE as (Fa & Fb & H). pose proof (M_pos (f_prec f) (f_emax f)).
  destruct (sub_finite (f_prec f) (f_emax f) b a Fb Fa) as [Nba Vba]. destruct (sub_finite (f_prec f) (f_emax f) x a Fx Fa) as [Nxa Vxa].
  assert (0 <= Vf f (sub b a)) as Hp by (rewrite Vba; apply (sat_rn_nonneg (f_prec f) (f_emax f)); lra).
  assert (sub b a = S754_infinity false) as Eb by (destruct (number_cases _ _ _ Nba) as [?|[E|?]]; [congruence|rewrite E in Hp; cbn [V] in Hp; lra|done]).
  assert (sub x a = S754_infinity false) as Ex by (apply (number_inf (f_prec f) (f_emax f)); [done|]; rewrite Vxa, Hx, <- Vba, Eb; done).
  destruct (scale_cases a b x) as [[E _]|(_ & _ & ->)]; [done|..]; [|by rewrite Ex, Eb].
  exfalso. rewrite Eb in Vba. cbn [V] in Vba. replace (Vf f b - Vf f a) with 0 in Vba by lra. rewrite (rn_0 (f_prec f) (f_emax f)), (sat_0 (f_prec f) (f_emax f)) in Vba. lra.
Qed.

(** The bounding box of the scene. *)
Definition fin_box (DIM : nat) (b : list (spec_float * spec_float)) : Prop :=
  length b = DIM /\ Forall (fun c => ffinite f c.1 /\ ffinite f c.2 /\ SFltb c.2 c.1 = false) b.
Record Hull (DIM : nat) (S : list (list (spec_float * spec_float))) (b : list (spec_float * spec_float)) : Prop := {
  h_len : length b = DIM;
  h_fin : forall d c, b !! d = Some c -> ffinite f c.1 /\ ffinite f c.2;
  h_all : forall d c q e, b !! d = Some c -> q ∈ S -> q !! d = Some e -> Vf f c.1 <= Vf f e.1 /\ Vf f e.2 <= Vf f c.2;
  h_lo : forall d c, b !! d = Some c -> c.1 = f_largest f \/ exists q e, q ∈ S /\ q !! d = Some e /\ c.1 = e.1;
  h_hi : forall d c, b !! d = Some c -> c.2 = f_lowest f \/ exists q e, q ∈ S /\ q !! d = Some e /\ c.2 = e.2 }.
Lemma kmin_V x y : ffinite f x -> ffinite f y -> Vf f (kmin (fops f) x y) <= Vf f x /\ Vf f (kmin (fops f) x y) <= Vf f y.
Proof.
  intros Fx Fy. pose proof (finite_number _ _ _ Fx) as Nx. pose proof (finite_number _ _ _ Fy) as Ny. unfold kmin. destruct (o_ltb (fops f) y x) eqn:E; unfold fops in E; cbn [o_ltb FloatOps] in E.
  - apply (ltb_V (f_prec f) (f_emax f)) in E; [lra|done..].
  - apply (ltb_V_false (f_prec f) (f_emax f)) in E; [lra|done..].
Qed.
Lemma kmax_V x y : ffinite f x -> ffinite f y -> Vf f x <= Vf f (kmax (fops f) x y) /\ Vf f y <= Vf f (kmax (fops f) x y).
Proof.
  intros Fx Fy. pose proof (finite_number _ _ _ Fx) as Nx. pose proof (finite_number _ _ _ Fy) as Ny. unfold kmax. destruct (o_ltb (fops f) x y) eqn:E; unfold fops in E; cbn [o_ltb FloatOps] in E.
  - apply (ltb_V (f_prec f) (f_emax f)) in E; [lra|done..].
  - apply (ltb_V_false (f_prec f) (f_emax f)) in E; [lra|done..].
Qed.
Lemma kmin_or x y : kmin (fops f) x y = x \/ kmin (fops f) x y = y.
Proof. unfold kmin. destruct o_ltb; auto. Qed.
Lemma kmax_or x y : kmax (fops f) x y = x \/ kmax (fops f) x y = y.
Proof. unfold kmax. destruct o_ltb; auto. Qed.
Lemma hull_join DIM S1 S2 b1 b2 : Hull DIM S1 b1 -> Hull DIM S2 b2 -> Hull DIM (S1 ++ S2) (expand_box (fops f) b1 b2).
Proof.
  intros [L1 F1 A1 Lo1 Hi1] [L2 F2 A2 Lo2 Hi2].
  assert (forall d c, expand_box (fops f) b1 b2 !! d = Some c -> exists c1 c2, b1 !! d = Some c1 /\ b2 !! d = Some c2 /\ c = (kmin (fops f) c1.1 c2.1, kmax (fops f) c1.2 c2.2)) as HX.
  { intros d c H. apply lookup_zip_with_Some in H as ([lo hi] & [lo' hi'] & -> & H1 & H2). by exists (lo, hi), (lo', hi'). }
  constructor.
  - unfold expand_box. rewrite zip_with_length. lia.
  - intros d c (c1 & c2 & E1 & E2 & ->)%HX. destruct (F1 d c1 E1), (F2 d c2 E2). cbn [fst snd]. destruct (kmin_or c1.1 c2.1) as [-> | ->], (kmax_or c1.2 c2.2) as [-> | ->]; done.
  - intros d c q e (c1 & c2 & E1 & E2 & ->)%HX Hq He. destruct (F1 d c1 E1) as [G1 G2], (F2 d c2 E2) as [G3 G4]. cbn [fst snd].
    destruct (kmin_V c1.1 c2.1 G1 G3), (kmax_V c1.2 c2.2 G2 G4). apply elem_of_app in Hq as [Hq|Hq]; [destruct (A1 d c1 q e E1 Hq He)|destruct (A2 d c2 q e E2 Hq He)]; lra.
  - intros d c (c1 & c2 & E1 & E2 & ->)%HX. cbn [fst snd]. destruct (kmin_or c1.1 c2.1) as [-> | ->]; [destruct (Lo1 d c1 E1) as [?|(q & e & Hq & ?)]|destruct (Lo2 d c2 E2) as [?|(q & e & Hq & ?)]]; auto;
      right; exists q, e; rewrite elem_of_app; auto.
  - intros d c (c1 & c2 & E1 & E2 & ->)%HX. cbn [fst snd]. destruct (kmax_or c1.2 c2.2) as [-> | ->]; [destruct (Hi1 d c1 E1) as [?|(q & e & Hq & ?)]|destruct (Hi2 d c2 E2) as [?|(q & e & Hq & ?)]]; auto;
      right; exists q, e; rewrite elem_of_app; auto.
Qed.
Lemma scene_hull DIM vals t : Forall (fin_box DIM) vals -> forall b, scene_box f DIM vals t = Some b -> Hull DIM (omap (fun i => vals !! i) (red_values t)) b.
Proof.
  intros HV. unfold scene_box. induction t as [|i|t1 IH1 t2 IH2]; cbn [reduced red_values omap list_omap]; intros b Hb.
  - injection Hb as <-. destruct (max_finite_ok (f_prec f) (f_emax f)) as (M1 & M2 & _). constructor.
    + unfold empty_box. apply replicate_length.
    + intros d c (-> & _)%lookup_replicate. done.
    + intros d c q e _ Hq. by apply elem_of_nil in Hq.
    + intros d c (-> & _)%lookup_replicate. by left.
    + intros d c (-> & _)%lookup_replicate. by left.
  - rewrite Hb. pose proof (elem_of_list_lookup_2 _ _ _ Hb) as Hin. rewrite Forall_forall in HV. destruct (HV b Hin) as [HL HF]. rewrite Forall_lookup in HF. constructor.
    + done.
    + intros d c Hc. destruct (HF d c Hc) as (? & ? & _). done.
    + intros d c q e Hc ->%elem_of_list_singleton He. rewrite Hc in He. injection He as <-. lra.
    + intros d c Hc. right. exists b, c. split; [apply elem_of_list_singleton|]; done.
    + intros d c Hc. right. exists b, c. split; [apply elem_of_list_singleton|]; done.
  - apply bind_Some in Hb as (b1 & H1 & Hb). apply bind_Some in Hb as (b2 & H2 & Hb). injection Hb as <-. rewrite omap_app. apply hull_join; auto.
Qed.
(** With every value joined: the corners are ordered and attained. *)
Lemma scene_ok DIM vals t b : Forall (fin_box DIM) vals -> vals <> [] -> (forall i, i < length vals -> i ∈ red_values t)%nat -> scene_box f DIM vals t = Some b ->
  length b = DIM /\ forall d c, b !! d = Some c -> Extent c.1 c.2 /\ (forall q e, q ∈ vals -> q !! d = Some e -> Vf f c.1 <= Vf f e.1 /\ Vf f e.2 <= Vf f c.2) /\
    exists q e, q ∈ vals /\ q !! d = Some e /\ Vf f e.2 = Vf f c.2.
Proof.
  intros HV Hne Hall Hb. destruct (scene_hull DIM vals t HV b Hb) as [HL HF HA HLo HHi]. split; [done|]. intros d c Hc.
  assert (forall q, q ∈ vals -> q ∈ omap (fun i => vals !! i) (red_values t)) as Hin.
  { intros q (i & Hi)%elem_of_list_lookup_1. apply elem_of_list_omap. exists i. split; [|done]. apply Hall. by eapply lookup_lt_Some. }
  assert (forall q, q ∈ omap (fun i => vals !! i) (red_values t) -> q ∈ vals) as Hin'.
  { intros q (i & _ & Hi)%elem_of_list_omap. by eapply elem_of_list_lookup_2. }
  assert (forall q e, q ∈ vals -> q !! d = Some e -> Vf f c.1 <= Vf f e.1 /\ Vf f e.2 <= Vf f c.2) as HA' by eauto.
  assert (forall q e, q ∈ vals -> q !! d = Some e -> ffinite f e.1 /\ ffinite f e.2 /\ Vf f e.1 <= Vf f e.2) as HQ.
  { intros q e Hq He. rewrite Forall_forall in HV. destruct (HV q Hq) as [_ HF']. rewrite Forall_lookup in HF'. destruct (HF' d e He) as (? & ? & H). split; [done|]. split; [done|]. apply (ltb_V_false (f_prec f) (f_emax f)) in H; [done|by apply finite_number..]. }
  destruct vals as [|q0 vals]; [done|]. assert (q0 ∈ q0 :: vals) as Hq0 by apply elem_of_list_here. assert (length q0 = DIM) as HL0 by (inversion HV as [|? ? [? _]]; done).
  destruct (lookup_lt_is_Some_2 q0 d) as [e0 He0]; [rewrite HL0, <- HL; by eapply lookup_lt_Some|].
  destruct (HF d c Hc) as [F1 F2]. destruct (HA' q0 e0 Hq0 He0), (HQ q0 e0 Hq0 He0) as (? & ? & ?). split; [split; [done|split; [done|lra]]|]. split; [done|].
  destruct (HHi d c Hc) as [E|(q & e & Hq & He & ->)]; [|exists q, e; auto].
  exists q0, e0. split; [done|]. split; [done|]. destruct (max_finite_ok (f_prec f) (f_emax f)) as (_ & _ & HM). destruct (HM e0.2) as [HM1 _]; [done|]. rewrite E in *. unfold f_lowest in *. lra.
Qed.
End Scale.
