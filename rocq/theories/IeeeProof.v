(** The operations of SpecFloat on numbers of a format, as rounded and saturated real operations. *)
From Coq Require Import Reals Lra SpecFloat.
From Flocq Require Import Core IEEE754.BinarySingleNaN.
From Verif Require Import Base IeeeSpec.
Local Open Scope R_scope.

Section Ieee.
Context (prec emax : Z) {Hprec : FLX.Prec_gt_0 prec} {Hmax : Prec_lt_emax prec emax}.
Notation fexp := (SpecFloat.fexp prec emax).
Notation M := (bpow radix2 emax).
Notation number := (ieee_number prec emax).
Notation finite := (ieee_finite prec emax).
Notation bf := (binary_float prec emax).

(** The value of a number; an infinity counts as plus or minus 2^emax. *)
Definition V (x : spec_float) : R := match x with S754_infinity s => if s then - M else M | _ => SF2R radix2 x end.
Definition rn (t : R) : R := round radix2 fexp ZnearestE t.
Definition sat (t : R) : R := Rmax (- M) (Rmin M t).

Lemma M_pos : 1 <= M.
Proof. change 1 with (bpow radix2 0). apply bpow_le. unfold Prec_lt_emax, FLX.Prec_gt_0 in *. lia. Qed.
Lemma rn_mono x y : x <= y -> rn x <= rn y.
Proof. apply round_le; typeclasses eauto. Qed.
Lemma rn_0 : rn 0 = 0.
Proof. apply round_0. typeclasses eauto. Qed.
Lemma sat_mono x y : x <= y -> sat x <= sat y.
Proof. intros H. unfold sat. apply Rle_max_compat_l, Rle_min_compat_l, H. Qed.
Lemma sat_id x : - M <= x <= M -> sat x = x.
Proof. intros [H1 H2]. unfold sat. rewrite Rmin_right, Rmax_right; done. Qed.
Lemma sat_0 : sat 0 = 0.
Proof. pose proof M_pos. apply sat_id. lra. Qed.
Lemma sat_hi x : M <= x -> sat x = M.
Proof. intros H. pose proof M_pos. unfold sat. rewrite Rmin_left by done. apply Rmax_right. lra. Qed.
Lemma sat_lo x : x <= - M -> sat x = - M.
Proof. intros H. pose proof M_pos. unfold sat. rewrite Rmin_right by lra. apply Rmax_left. lra. Qed.

(** Numbers as values of Flocq's type. *)
Lemma number_B x : number x = true -> exists b : bf, B2SF b = x /\ is_nan b = false.
Proof.
  unfold ieee_number. rewrite andb_true_iff. intros [H1 H2]. exists (SF2B x H1). rewrite B2SF_SF2B, is_nan_SF2B. split; [done|]. by destruct x.
Qed.
Lemma finite_B x : finite x = true -> exists b : bf, B2SF b = x /\ is_finite b = true.
Proof.
  unfold ieee_finite. rewrite andb_true_iff. intros [H1 H2]. exists (SF2B x H1). rewrite B2SF_SF2B, is_finite_SF2B. split; [done|]. by destruct x.
Qed.
Lemma B_number (b : bf) : is_nan b = false -> number (B2SF b) = true.
Proof. intros H. unfold ieee_number. rewrite valid_binary_B2SF. by destruct b. Qed.
Lemma B_finite (b : bf) : is_finite b = true -> finite (B2SF b) = true.
Proof. intros H. unfold ieee_finite. rewrite valid_binary_B2SF. by destruct b. Qed.
Lemma finite_number x : finite x = true -> number x = true.
Proof. unfold ieee_finite, ieee_number. rewrite !andb_true_iff. intros [H1 H2]. split; [done|]. by destruct x. Qed.
Lemma V_B (b : bf) : is_finite b = true -> V (B2SF b) = B2R b.
Proof. by destruct b. Qed.
Lemma V_finite x : finite x = true -> - M < V x < M.
Proof. intros (b & <- & Hb)%finite_B. rewrite V_B by done. apply Rabs_lt_inv, abs_B2R_lt_emax. Qed.
Lemma V_number x : number x = true -> - M <= V x <= M.
Proof.
  intros (b & <- & Hb)%number_B. pose proof M_pos. destruct (is_finite b) eqn:E.
  - pose proof (V_finite _ (B_finite _ E)). lra.
  - destruct b as [|[|]| |]; try done; simpl; lra.
Qed.
Lemma number_cases x : number x = true -> finite x = true \/ x = S754_infinity true \/ x = S754_infinity false.
Proof. unfold ieee_number, ieee_finite. destruct x as [|[|]| |]; auto. Qed.

(** Comparisons. *)
Lemma compare_V x y : number x = true -> number y = true -> SFcompare x y = Some (Rcompare (V x) (V y)).
Proof.
  intros Hx Hy. pose proof M_pos. destruct (number_cases x Hx) as [Fx|[-> | ->]], (number_cases y Hy) as [Fy|[-> | ->]].
  - apply finite_B in Fx as (a & <- & Ha). apply finite_B in Fy as (b & <- & Hb). rewrite !V_B by done. by apply Bcompare_correct.
  - pose proof (V_finite _ Fx). simpl. rewrite Rcompare_Gt by lra. by destruct x as [|[|]| |].
  - pose proof (V_finite _ Fx). simpl. rewrite Rcompare_Lt by lra. by destruct x as [|[|]| |].
  - pose proof (V_finite _ Fy). simpl. rewrite Rcompare_Lt by lra. by destruct y as [|[|]| |].
  - simpl. by rewrite Rcompare_Eq.
  - simpl. by rewrite Rcompare_Lt by lra.
  - pose proof (V_finite _ Fy). simpl. rewrite Rcompare_Gt by lra. by destruct y as [|[|]| |].
  - simpl. by rewrite Rcompare_Gt by lra.
  - simpl. by rewrite Rcompare_Eq.
Qed.
Lemma ltb_V x y : number x = true -> number y = true -> SFltb x y = true <-> V x < V y.
Proof. intros Hx Hy. unfold SFltb. rewrite compare_V by done. destruct (Rcompare_spec (V x) (V y)); split; intros; (done || lra). Qed.
Lemma leb_V x y : number x = true -> number y = true -> SFleb x y = true <-> V x <= V y.
Proof. intros Hx Hy. unfold SFleb. rewrite compare_V by done. destruct (Rcompare_spec (V x) (V y)); split; intros; (done || lra). Qed.
Lemma ltb_V_false x y : number x = true -> number y = true -> SFltb x y = false <-> V y <= V x.
Proof. intros Hx Hy. rewrite <- not_true_iff_false, ltb_V by done. lra. Qed.
Lemma eqb_V x y : number x = true -> number y = true -> SFeqb x y = true <-> V x = V y.
Proof. intros Hx Hy. unfold SFeqb. rewrite compare_V by done. destruct (Rcompare_spec (V x) (V y)); split; intros; (done || lra). Qed.

(** SpecFloat's operations are Flocq's, rounding to nearest even. *)
Lemma round_nearest_even_equiv s m l : round_nearest_even m l = choice_mode mode_NE s m l.
Proof. destruct l as [|c]; [done|]. destruct c; [|done..]. simpl. unfold Round.cond_incr. by destruct Z.even. Qed.
Lemma binary_round_aux_equiv sx mx ex lx : SpecFloat.binary_round_aux prec emax sx mx ex lx = BinarySingleNaN.binary_round_aux prec emax mode_NE sx mx ex lx.
Proof.
  unfold SpecFloat.binary_round_aux, BinarySingleNaN.binary_round_aux. set (mrse' := shr_fexp _ _ _ _ _). destruct mrse' as [mrs' e']. simpl.
  by rewrite (round_nearest_even_equiv sx).
Qed.
Lemma binary_round_equiv s m e : SpecFloat.binary_round prec emax s m e = BinarySingleNaN.binary_round prec emax mode_NE s m e.
Proof.
  unfold SpecFloat.binary_round, BinarySingleNaN.binary_round, shl_align_fexp. set (mez := shl_align _ _ _). destruct mez as [mz ez].
  apply binary_round_aux_equiv.
Qed.
Lemma binary_normalize_equiv m e szero : SpecFloat.binary_normalize prec emax m e szero = B2SF (BinarySingleNaN.binary_normalize prec emax Hprec Hmax mode_NE m e szero).
Proof. destruct m; [done|..]; simpl; rewrite B2SF_SF2B; apply binary_round_equiv. Qed.
Lemma add_B (x y : bf) : SFadd prec emax (B2SF x) (B2SF y) = B2SF (Bplus mode_NE x y).
Proof.
  destruct x as [sx|sx| |sx mx ex Bx], y as [sy|sy| |sy my ey By]; [by (trivial || simpl; case Bool.eqb)..|]. apply binary_normalize_equiv.
Qed.
Lemma sub_B (x y : bf) : SFsub prec emax (B2SF x) (B2SF y) = B2SF (Bminus mode_NE x y).
Proof.
  destruct x as [sx|sx| |sx mx ex Bx], y as [sy|sy| |sy my ey By]; [by (trivial || simpl; case Bool.eqb)..|]. simpl. unfold Zminus.
  rewrite <- cond_Zopp_negb. apply binary_normalize_equiv.
Qed.
Lemma mul_B (x y : bf) : SFmul prec emax (B2SF x) (B2SF y) = B2SF (Bmult mode_NE x y).
Proof.
  destruct x as [sx|sx| |sx mx ex Bx], y as [sy|sy| |sy my ey By]; [by trivial..|]. simpl. rewrite B2SF_SF2B. apply binary_round_aux_equiv.
Qed.
Lemma div_B (x y : bf) : SFdiv prec emax (B2SF x) (B2SF y) = B2SF (Bdiv mode_NE x y).
Proof.
  destruct x as [sx|sx| |sx mx ex Bx], y as [sy|sy| |sy my ey By]; [by (trivial || simpl; case Bool.eqb)..|]. simpl. rewrite B2SF_SF2B.
  set (melz := SFdiv_core_binary _ _ _ _ _ _). destruct melz as [[mz ez] lz]. apply binary_round_aux_equiv.
Qed.
Lemma sqrt_B (x : bf) : SFsqrt prec emax (B2SF x) = B2SF (Bsqrt mode_NE x).
Proof.
  destruct x as [sx|sx| |sx mx ex Bx]; [by (trivial || case sx)..|]. destruct sx; [done|]. simpl. rewrite B2SF_SF2B.
  set (melz := SFsqrt_core_binary _ _ _ _). destruct melz as [[mz ez] lz]. apply binary_round_aux_equiv.
Qed.

(** What a finite operation yields: a number that is the rounded result, saturated. *)
Lemma overflow_V (b : bf) s t : B2SF b = binary_overflow prec emax mode_NE s -> M <= Rabs (rn t) -> (s = true -> t <= 0) -> (s = false -> 0 <= t) ->
  is_nan b = false /\ V (B2SF b) = sat (rn t).
Proof.
  intros E Ht H1 H2. unfold binary_overflow in E. simpl in E. rewrite E. split; [by destruct b|]. simpl. destruct s.
  - assert (rn t <= 0) by (rewrite <- rn_0; by apply rn_mono, H1). rewrite Rabs_left1 in Ht by done. rewrite sat_lo; [done|]. lra.
  - assert (0 <= rn t) by (rewrite <- rn_0; by apply rn_mono, H2). rewrite Rabs_pos_eq in Ht by done. by rewrite sat_hi.
Qed.
Lemma finite_nan (b : bf) : is_finite b = true -> is_nan b = false.
Proof. by destruct b. Qed.
Lemma exact_V (b : bf) t : is_finite b = true -> B2R b = rn t -> Rabs (rn t) < M -> is_nan b = false /\ V (B2SF b) = sat (rn t).
Proof. intros H1 H2 H3. split; [by apply finite_nan|]. rewrite V_B, H2 by done. rewrite sat_id; [done|]. apply Rabs_lt_inv in H3. lra. Qed.
Lemma Bsign_V (b : bf) : is_finite b = true -> (Bsign b = true -> B2R b <= 0) /\ (Bsign b = false -> 0 <= B2R b).
Proof.
  intros Hb. destruct b as [s|s| |s m e Hm]; try done; simpl.
  - split; intros; lra.
  - split; intros ->; [apply F2R_le_0|apply F2R_ge_0]; simpl; lia.
Qed.

Lemma sub_finite x y : finite x = true -> finite y = true -> number (SFsub prec emax x y) = true /\ V (SFsub prec emax x y) = sat (rn (V x - V y)).
Proof.
  intros (a & <- & Ha)%finite_B (b & <- & Hb)%finite_B. rewrite sub_B, (V_B a), (V_B b) by done.
  enough (is_nan (Bminus mode_NE a b) = false /\ V (B2SF (Bminus mode_NE a b)) = sat (rn (B2R a - B2R b))) as [H1 H2] by (split; [by apply B_number|done]).
  pose proof (Bminus_correct prec emax Hprec Hmax mode_NE a b Ha Hb) as H. change (round_mode mode_NE) with ZnearestE in H. fold (rn (B2R a - B2R b)) in H.
  destruct (Rlt_bool_spec (Rabs (rn (B2R a - B2R b))) M) as [Hl|Hl].
  - destruct H as (H1 & H2 & _). by apply exact_V.
  - destruct H as [H1 H2]. apply (overflow_V _ _ _ H1 Hl); pose proof (Bsign_V a Ha) as [A1 A2]; pose proof (Bsign_V b Hb) as [B1 B2]; intros E; rewrite E in *; destruct (Bsign b); try done;
      [specialize (A1 eq_refl); specialize (B2 eq_refl)|specialize (A2 eq_refl); specialize (B1 eq_refl)]; lra.
Qed.
Lemma add_finite x y : finite x = true -> finite y = true -> number (SFadd prec emax x y) = true /\ V (SFadd prec emax x y) = sat (rn (V x + V y)).
Proof.
  intros (a & <- & Ha)%finite_B (b & <- & Hb)%finite_B. rewrite add_B, (V_B a), (V_B b) by done.
  enough (is_nan (Bplus mode_NE a b) = false /\ V (B2SF (Bplus mode_NE a b)) = sat (rn (B2R a + B2R b))) as [H1 H2] by (split; [by apply B_number|done]).
  pose proof (Bplus_correct prec emax Hprec Hmax mode_NE a b Ha Hb) as H. change (round_mode mode_NE) with ZnearestE in H. fold (rn (B2R a + B2R b)) in H.
  destruct (Rlt_bool_spec (Rabs (rn (B2R a + B2R b))) M) as [Hl|Hl].
  - destruct H as (H1 & H2 & _). by apply exact_V.
  - destruct H as [H1 H2]. apply (overflow_V _ _ _ H1 Hl); pose proof (Bsign_V a Ha) as [A1 A2]; pose proof (Bsign_V b Hb) as [B1 B2]; intros E; rewrite E in *; destruct (Bsign b); try done;
      [specialize (A1 eq_refl); specialize (B1 eq_refl)|specialize (A2 eq_refl); specialize (B2 eq_refl)]; lra.
Qed.
Lemma mul_finite x y : finite x = true -> finite y = true -> number (SFmul prec emax x y) = true /\ V (SFmul prec emax x y) = sat (rn (V x * V y)).
Proof.
  intros (a & <- & Ha)%finite_B (b & <- & Hb)%finite_B. rewrite mul_B, (V_B a), (V_B b) by done.
  enough (is_nan (Bmult mode_NE a b) = false /\ V (B2SF (Bmult mode_NE a b)) = sat (rn (B2R a * B2R b))) as [H1 H2] by (split; [by apply B_number|done]).
  pose proof (Bmult_correct prec emax Hprec Hmax mode_NE a b) as H. change (round_mode mode_NE) with ZnearestE in H. fold (rn (B2R a * B2R b)) in H.
  destruct (Rlt_bool_spec (Rabs (rn (B2R a * B2R b))) M) as [Hl|Hl].
  - destruct H as (H1 & H2 & _). rewrite Ha, Hb in H2. by apply exact_V.
  - apply (overflow_V _ _ _ H Hl); pose proof (Bsign_V a Ha) as [A1 A2]; pose proof (Bsign_V b Hb) as [B1 B2]; destruct (Bsign a), (Bsign b); try done; intros _;
      try specialize (A1 eq_refl); try specialize (A2 eq_refl); try specialize (B1 eq_refl); try specialize (B2 eq_refl); nra.
Qed.
Lemma div_finite x y : finite x = true -> finite y = true -> V y <> 0 -> number (SFdiv prec emax x y) = true /\ V (SFdiv prec emax x y) = sat (rn (V x / V y)).
Proof.
  intros (a & <- & Ha)%finite_B (b & <- & Hb)%finite_B Hy. rewrite div_B. rewrite (V_B b) in Hy by done. rewrite (V_B a), (V_B b) by done.
  enough (is_nan (Bdiv mode_NE a b) = false /\ V (B2SF (Bdiv mode_NE a b)) = sat (rn (B2R a / B2R b))) as [H1 H2] by (split; [by apply B_number|done]).
  pose proof (Bdiv_correct prec emax Hprec Hmax mode_NE a b Hy) as H. change (round_mode mode_NE) with ZnearestE in H. fold (rn (B2R a / B2R b)) in H.
  destruct (Rlt_bool_spec (Rabs (rn (B2R a / B2R b))) M) as [Hl|Hl].
  - destruct H as (H1 & H2 & _). rewrite Ha in H2. by apply exact_V.
  - apply (overflow_V _ _ _ H Hl); pose proof (Bsign_V a Ha) as [A1 A2]; pose proof (Bsign_V b Hb) as [B1 B2]; destruct (Bsign a), (Bsign b); try done; intros _;
      try specialize (A1 eq_refl); try specialize (A2 eq_refl); try specialize (B1 eq_refl); try specialize (B2 eq_refl); unfold Rdiv.
    + assert (0 < / B2R b) by (apply Rinv_0_lt_compat; lra). nra.
    + assert (/ B2R b < 0) by (apply Rinv_lt_0_compat; lra). nra.
    + assert (/ B2R b < 0) by (apply Rinv_lt_0_compat; lra). nra.
    + assert (0 < / B2R b) by (apply Rinv_0_lt_compat; lra). nra.
Qed.

(** The operations of a distance computation, whose operands may be infinite. *)
Lemma rn_M : rn M = M.
Proof.
  apply round_generic; [typeclasses eauto|]. apply generic_format_bpow. unfold SpecFloat.fexp, emin. unfold Prec_lt_emax, FLX.Prec_gt_0 in *. lia.
Qed.
Lemma sat_rn_big t : M <= t -> sat (rn t) = M.
Proof. intros H. apply sat_hi. rewrite <- rn_M. by apply rn_mono. Qed.
Lemma sat_rn_nonneg t : 0 <= t -> 0 <= sat (rn t).
Proof. intros H. rewrite <- sat_0, <- rn_0. by apply sat_mono, rn_mono. Qed.
Lemma sat_rn_nonpos t : t <= 0 -> sat (rn t) <= 0.
Proof. intros H. rewrite <- sat_0, <- rn_0. by apply sat_mono, rn_mono. Qed.
Lemma sat_opp t : sat (- t) = - sat t.
Proof.
  pose proof M_pos. unfold sat. unfold Rmax, Rmin. repeat destruct Rle_dec; lra.
Qed.
Lemma rn_opp t : rn (- t) = - rn t.
Proof. unfold rn. apply round_NE_opp. Qed.
Lemma inf_number s : number (S754_infinity s) = true.
Proof. done. Qed.
Lemma sq_V d : number d = true -> number (SFmul prec emax d d) = true /\ V (SFmul prec emax d d) = sat (rn (V d * V d)).
Proof.
  intros Hd. pose proof M_pos. destruct (number_cases d Hd) as [F|[-> | ->]]; [by apply mul_finite|..]; (split; [done|]); simpl; rewrite sat_rn_big; (done || nra).
Qed.
Lemma nonneg_inf x : number x = true -> 0 <= V x -> finite x = true \/ x = S754_infinity false.
Proof. intros Hx H. pose proof M_pos. destruct (number_cases x Hx) as [?|[-> | ->]]; [by left| |by right]. simpl in H. lra. Qed.
Lemma add_V s t : number s = true -> number t = true -> 0 <= V s -> 0 <= V t ->
  number (SFadd prec emax s t) = true /\ V (SFadd prec emax s t) = sat (rn (V s + V t)).
Proof.
  intros Hs Ht H1 H2. destruct (nonneg_inf s Hs H1) as [Fs| ->]; [destruct (nonneg_inf t Ht H2) as [Ft| ->]; [by apply add_finite|]|].
  - replace (SFadd prec emax s (S754_infinity false)) with (S754_infinity false) by (by destruct s). split; [done|]. simpl. rewrite sat_rn_big; [done|lra].
  - replace (SFadd prec emax (S754_infinity false) t) with (S754_infinity false) by (by destruct (nonneg_inf t Ht H2) as [Ft| ->]; [destruct t|]).
    split; [done|]. simpl. rewrite sat_rn_big; [done|lra].
Qed.
Lemma sqrt_finite s : finite s = true -> 0 <= V s -> finite (SFsqrt prec emax s) = true /\ V (SFsqrt prec emax s) = rn (R_sqrt.sqrt (V s)).
Proof.
  intros (a & <- & Ha)%finite_B H. rewrite V_B in H by done. rewrite (V_B a) by done. rewrite sqrt_B.
  destruct (Bsqrt_correct prec emax Hprec Hmax mode_NE a) as (H1 & H2 & _).
  assert (is_finite (Bsqrt mode_NE a) = true) as Hf.
  { rewrite H2. destruct a as [|[|]| |[|] m e Hm]; try done. exfalso. apply (Rle_not_lt _ _ H). apply F2R_lt_0. simpl. lia. }
  split; [by apply B_finite|]. by rewrite V_B, H1.
Qed.
Lemma sqrt_V s : number s = true -> 0 <= V s -> number (SFsqrt prec emax s) = true /\ 0 <= V (SFsqrt prec emax s).
Proof.
  intros Hs H. destruct (nonneg_inf s Hs H) as [Fs| ->].
  - destruct (sqrt_finite s Fs H) as [H1 H2]. split; [by apply finite_number|]. rewrite H2, <- rn_0. apply rn_mono, sqrt_pos.
  - simpl. pose proof M_pos. split; [done|lra].
Qed.
Lemma sqrt_mono s t : number s = true -> number t = true -> 0 <= V s <= V t -> V (SFsqrt prec emax s) <= V (SFsqrt prec emax t).
Proof.
  intros Hs Ht [H1 H2]. destruct (nonneg_inf t Ht ltac:(lra)) as [Ft| ->].
  - destruct (nonneg_inf s Hs H1) as [Fs| ->].
    + destruct (sqrt_finite s Fs H1) as [_ ->]. destruct (sqrt_finite t Ft ltac:(lra)) as [_ ->]. by apply rn_mono, sqrt_le_1_alt.
    + pose proof (V_finite t Ft). simpl in H2. lra.
  - apply (V_number (SFsqrt prec emax s)). by apply sqrt_V.
Qed.
(** Two numbers of the same magnitude have the same square, bit for bit. *)
Lemma sq_eq a b : number a = true -> number b = true -> V a = - V b -> SFmul prec emax a a = SFmul prec emax b b.
Proof.
  intros Ha Hb E. pose proof M_pos. destruct (number_cases a Ha) as [Fa|[-> | ->]], (number_cases b Hb) as [Fb|[-> | ->]]; try done;
    try (pose proof (V_finite _ Fa)); try (pose proof (V_finite _ Fb)); simpl in E; try lra.
  apply finite_B in Fa as (x & <- & Fx). apply finite_B in Fb as (y & <- & Fy). rewrite !V_B in E by done.
  assert (Babs x = Babs y) as Eab.
  { apply B2R_Bsign_inj; rewrite ?is_finite_Babs, ?B2R_Babs; try done; [by rewrite E, Rabs_Ropp|]. rewrite !Bsign_Babs; (done || by destruct x || by destruct y). }
  destruct x as [|s| |sx mx ex Hx], y as [|s'| |sy my ey Hy]; try done; [simpl; by rewrite !xorb_nilpotent|]. simpl in Eab. injection Eab as -> ->. simpl. by rewrite !xorb_nilpotent.
Qed.

(** Signs: a sum of squares and its root have sign +, also when they are zero. *)
Lemma Bsign_SF (b : bf) : sign_SF (B2SF b) = Bsign b.
Proof. by destruct b. Qed.
Lemma sq_sign d : number d = true -> sign_SF (SFmul prec emax d d) = false.
Proof.
  intros Hd. pose proof (sq_V d Hd) as [Hn _]. apply number_B in Hd as (a & <- & Ha). rewrite mul_B in *. rewrite Bsign_SF.
  pose proof (Bmult_correct prec emax Hprec Hmax mode_NE a a) as H. destruct Rlt_bool.
  - destruct H as (_ & _ & H). rewrite H; [apply xorb_nilpotent|]. by destruct (Bmult mode_NE a a).
  - rewrite xorb_nilpotent in H. unfold binary_overflow in H. simpl in H. by rewrite <- Bsign_SF, H.
Qed.
Lemma add_sign s t : number s = true -> number t = true -> sign_SF s = false -> sign_SF t = false -> sign_SF (SFadd prec emax s t) = false.
Proof.
  intros (a & <- & Ha)%number_B (b & <- & Hb)%number_B. rewrite add_B, !Bsign_SF. intros Sa Sb.
  destruct (is_finite a) eqn:Fa; [destruct (is_finite b) eqn:Fb|].
  - pose proof (Bplus_correct prec emax Hprec Hmax mode_NE a b Fa Fb) as H. destruct Rlt_bool.
    + destruct H as (_ & _ & ->). rewrite Sa, Sb. pose proof (proj2 (Bsign_V a Fa) Sa). pose proof (proj2 (Bsign_V b Fb) Sb). destruct (Rcompare_spec (B2R a + B2R b) 0); (done || lra).
    + destruct H as [H _]. rewrite Sa in H. unfold binary_overflow in H. simpl in H. by rewrite <- Bsign_SF, H.
  - destruct b; try done. by destruct a.
  - destruct a; try done. simpl in Sa. subst. destruct b as [|s| |]; try done. simpl in Sb. by subst.
Qed.
Lemma sqrt_sign s : number s = true -> sign_SF s = false -> sign_SF (SFsqrt prec emax s) = false.
Proof.
  intros (a & <- & Ha)%number_B. rewrite sqrt_B, !Bsign_SF. intros Sa. destruct (Bsqrt_correct prec emax Hprec Hmax mode_NE a) as (_ & H2 & H3).
  rewrite H3; [done|]. destruct a as [|s| |[] m e Hm]; try done; [simpl in Sa; by subst|]. by apply finite_nan.
Qed.

(** The extreme finite numbers. *)
Lemma max_finite_ok : finite (S754_finite false (shift_pos (Z.to_pos prec) 1 - 1) (emax - prec)) = true /\
  finite (S754_finite true (shift_pos (Z.to_pos prec) 1 - 1) (emax - prec)) = true /\
  forall x, finite x = true -> V (S754_finite true (shift_pos (Z.to_pos prec) 1 - 1) (emax - prec)) <= V x <= V (S754_finite false (shift_pos (Z.to_pos prec) 1 - 1) (emax - prec)).
Proof.
  pose proof (Bmax_float_proof prec emax Hprec Hmax) as HB. unfold ieee_finite.
  split; [by rewrite HB|]. simpl in HB. split; [simpl; by rewrite HB|]. intros x (b & <- & Hb)%finite_B. rewrite V_B by done.
  assert (V (S754_finite true (shift_pos (Z.to_pos prec) 1 - 1) (emax - prec)) = - V (S754_finite false (shift_pos (Z.to_pos prec) 1 - 1) (emax - prec))) as ->.
  { simpl. change (Z.neg ?p) with (- Z.pos p)%Z. by rewrite F2R_Zopp. }
  apply Rabs_le_inv. eapply Rle_trans; [apply abs_B2R_le_emax_minus_prec; done|]. simpl. unfold F2R. simpl.
  assert (IZR (Z.pos (shift_pos (Z.to_pos prec) 1 - 1)) = bpow radix2 prec - 1) as ->.
  { rewrite Pos2Z.inj_sub, minus_IZR.
    - rewrite shift_pos_correct, Z.mul_1_r, Z.pow_pos_fold, Z2Pos.id by (exact Hprec). rewrite (IZR_Zpower radix2); [done|]. unfold FLX.Prec_gt_0 in *. lia.
    - change (Z.pos 1 < Z.pos (shift_pos (Z.to_pos prec) 1))%Z. rewrite shift_pos_correct, Z.mul_1_r, Z.pow_pos_fold, Z2Pos.id by (exact Hprec). by apply (Zpower_gt_1 radix2). }
  rewrite Rmult_minus_distr_r, Rmult_1_l, <- bpow_plus. replace (prec + (emax - prec))%Z with emax by lia. lra.
Qed.
End Ieee.
