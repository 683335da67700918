(** C78: isValid and equals on geometries with floating-point coordinates, NaN and infinities included. *)
From Coq Require Import Reals Lra SpecFloat.
From Flocq Require Import Core Plus_error IEEE754.BinarySingleNaN.
From Verif Require Import Base IeeeSpec IeeeProof GeomOps DistFloatModel DistFloatProof ValidModel.
Local Open Scope R_scope.

Section Valid.
Context (prec emax : Z) {Hprec : FLX.Prec_gt_0 prec} {Hmax : Prec_lt_emax prec emax}.
Notation V := (IeeeProof.V emax).
Notation M := (bpow radix2 emax).
Notation number := (ieee_number prec emax).
Notation finite := (ieee_finite prec emax).
Notation fexp := (SpecFloat.fexp prec emax).
Notation rn := (IeeeProof.rn prec emax).
Notation sat := (IeeeProof.sat emax).
Notation fmax := (float_max prec emax).
(** A value of the format: a number or NaN. *)
Notation value x := (valid_binary prec emax x = true).
(** Differences from here on round to infinity: half a unit in the last place above the largest number. *)
Notation too_wide := (M - bpow radix2 (emax - prec - 1)).

Lemma isfinite_iff x : value x -> isfinite x = true <-> finite x = true.
Proof. intros Hx. unfold ieee_finite. rewrite Hx. destruct x; done. Qed.
Lemma value_cases x : value x -> finite x = true \/ (exists s, x = S754_infinity s) \/ x = S754_nan.
Proof. intros Hx. destruct x as [s|s| |s m e]; [left; done|right; left; by exists s|by right; right|left; unfold ieee_finite; by rewrite Hx]. Qed.

Lemma succ_fmax : Ulp.succ radix2 fexp (V fmax) = M.
Proof.
  destruct (fmax_val prec emax) as (H1 & H2 & H3). pose proof (M_pos prec emax). rewrite succ_eq_pos.
  - rewrite H3, H2. lra.
  - rewrite H2. assert (bpow radix2 (emax - prec) <= M); [|lra]. apply bpow_le. unfold FLX.Prec_gt_0 in Hprec. lia.
Qed.
Lemma half_ulp : bpow radix2 (emax - prec) = 2 * bpow radix2 (emax - prec - 1).
Proof. replace (emax - prec)%Z with (1 + (emax - prec - 1))%Z at 1 by lia. rewrite bpow_plus. simpl. lra. Qed.
Lemma below_wide t : t < too_wide -> rn t <= V fmax.
Proof.
  intros Ht. destruct (fmax_val prec emax) as (H1 & H2 & H3). apply round_N_le_midp; [typeclasses eauto|by apply V_format|].
  rewrite succ_fmax, H2, half_ulp. lra.
Qed.
Lemma wide_tie : rn too_wide = M.
Proof.
  pose proof Hprec as HP. unfold FLX.Prec_gt_0 in HP. pose proof Hmax as HM. unfold Prec_lt_emax in HM.
  assert (Hm : (mag radix2 too_wide : Z) = emax).
  { apply mag_unique_pos. split.
    - assert (bpow radix2 (emax - prec - 1) <= bpow radix2 (emax - 1)) by (apply bpow_le; lia).
      assert (M = 2 * bpow radix2 (emax - 1)) as -> by (replace emax with (1 + (emax - 1))%Z at 1 by lia; rewrite bpow_plus; simpl; lra). lra.
    - pose proof (bpow_gt_0 radix2 (emax - prec - 1)). lra. }
  assert (Hc : cexp radix2 fexp too_wide = (emax - prec)%Z).
  { unfold cexp. rewrite Hm. unfold SpecFloat.fexp, SpecFloat.emin. lia. }
  unfold IeeeProof.rn, round, scaled_mantissa. rewrite Hc.
  assert (Hs : too_wide * bpow radix2 (- (emax - prec)) = IZR (2 ^ prec - 1) + / 2).
  { rewrite minus_IZR, pow2_pos by lia. rewrite Rmult_minus_distr_r, <- !bpow_plus.
    replace (emax + - (emax - prec))%Z with prec by lia. replace (emax - prec - 1 + - (emax - prec))%Z with (-1)%Z by lia. simpl. lra. }
  rewrite Hs.
  assert (Hf : Zfloor (IZR (2 ^ prec - 1) + / 2) = (2 ^ prec - 1)%Z).
  { apply Zfloor_imp. rewrite plus_IZR. simpl. lra. }
  assert (Hn : ZnearestE (IZR (2 ^ prec - 1) + / 2) = (2 ^ prec)%Z).
  { unfold Znearest. rewrite Hf. replace (IZR (2 ^ prec - 1) + / 2 - IZR (2 ^ prec - 1)) with (/ 2) by lra. rewrite Rcompare_Eq by lra.
    assert (Z.even (2 ^ prec - 1) = false) as ->. { rewrite Z.even_sub, Z.even_pow by lia. done. }
    cbn [negb]. rewrite Zceil_floor_neq; rewrite Hf; [lia|]. lra. }
  rewrite Hn. unfold F2R; cbn [Fnum Fexp]. rewrite pow2_pos by lia. rewrite <- bpow_plus. f_equal. lia.
Qed.
Lemma not_wide t : sat (rn t) < M <-> t < too_wide.
Proof.
  destruct (fmax_val prec emax) as (H1 & H2 & H3). pose proof (bpow_gt_0 radix2 (emax - prec)) as Hp. pose proof (M_pos prec emax). split; intros Ht.
  - apply Rnot_le_lt. intros Hc. apply (rn_mono prec emax) in Hc. rewrite wide_tie in Hc. rewrite (sat_hi prec emax) in Ht by done. lra.
  - apply below_wide in Ht. unfold IeeeProof.sat. apply Rmax_lub_lt; [lra|]. eapply Rle_lt_trans; [apply Rmin_r|]. lra.
Qed.
(** Subtraction of different numbers does not round to zero. *)
Lemma sub_pos x y : finite x = true -> finite y = true -> 0 < sat (rn (V x - V y)) <-> V y < V x.
Proof.
  intros Hx Hy. pose proof (M_pos prec emax). split; intros Hl.
  - apply Rnot_le_lt. intros Hc. assert (sat (rn (V x - V y)) <= 0); [|lra]. apply (sat_rn_nonpos prec emax). lra.
  - assert (0 <= rn (V x - V y)). { rewrite <- (rn_0 prec emax). apply (rn_mono prec emax). lra. }
    assert (rn (V x - V y) <> 0).
    { unfold Rminus. apply (round_plus_neq_0 radix2 fexp); [typeclasses eauto|by apply V_format|apply generic_format_opp; by apply V_format|lra]. }
    unfold IeeeProof.sat. eapply Rlt_le_trans; [|apply Rmax_r]. apply Rmin_pos; lra.
Qed.

Theorem C78_point : forall p, Forall (fun x => value x) p -> valid_point p = true <-> Forall (fun x => finite x = true) p.
Proof.
  intros p. induction p as [|x p IH]; intros Hv; [done|]. apply Forall_cons in Hv as [Hx Hp]. rewrite Forall_cons, <- IH by done. simpl.
  rewrite <- (isfinite_iff x Hx). destruct (isfinite x); simpl; naive_solver.
Qed.
Lemma sub_inf x y : value x -> value y -> ~ (finite x = true /\ finite y = true) -> isfinite (SFsub prec emax x y) = false.
Proof.
  intros Hx Hy Hn. destruct (value_cases x Hx) as [Fx|[[s ->]| ->]], (value_cases y Hy) as [Fy|[[s' ->]| ->]]; try (exfalso; by apply Hn); try done.
  - by destruct x.
  - by destruct x.
  - by destruct y.
  - by destruct s, s'.
Qed.
Lemma fin_number x : value x -> number x = true -> isfinite x = true <-> - M < V x < M.
Proof.
  intros Hx Hn. destruct (value_cases x Hx) as [Fx|[[s ->]| ->]].
  - rewrite isfinite_iff by done. split; [intros _; by apply (V_finite prec emax)|done].
  - pose proof (M_pos prec emax). simpl. split; [done|]. destruct s; lra.
  - done.
Qed.
Theorem C78_box : forall b, Forall (fun c => value c.1 /\ value c.2) b ->
  valid_box prec emax b = true <->
  Forall (fun c => finite c.1 = true /\ finite c.2 = true /\ V c.1 < V c.2 /\ V c.2 - V c.1 < too_wide) b.
Proof.
  intros b. induction b as [|[x y] b IH]; intros Hv; [done|]. apply Forall_cons in Hv as [[Hx Hy] Hp]. rewrite Forall_cons, <- IH by done.
  cbn [valid_box fst snd] in *. set (r := SFsub prec emax y x). pose proof (M_pos prec emax) as HM.
  enough (SFleb r (S754_zero false) || negb (isfinite r) = false <-> finite x = true /\ finite y = true /\ V x < V y /\ V y - V x < too_wide) as HE.
  { destruct (SFleb r _ || negb (isfinite r)); naive_solver. }
  rewrite orb_false_iff, negb_false_iff.
  destruct (decide (finite y = true /\ finite x = true)) as [[Fy Fx]|Hn].
  - destruct (sub_finite prec emax y x Fy Fx) as [Hr Er]. fold r in Hr, Er.
    assert (Hvr : value r). { unfold ieee_number in Hr. by apply andb_true_iff in Hr as [? _]. }
    rewrite (fin_number r Hvr Hr), <- (not_wide (V y - V x)), <- (sub_pos y x Fy Fx), <- Er.
    assert (SFleb r (S754_zero false) = false <-> 0 < V r) as ->.
    { rewrite <- not_true_iff_false, (leb_V prec emax r (S754_zero false) Hr eq_refl). simpl. lra. }
    split; [intros (?&?&?); done|]. intros (_&_&?&?). split; [done|lra].
  - unfold r. rewrite (sub_inf y x Hy Hx Hn). naive_solver.
Qed.
Theorem C78_sphere : forall c r, Forall (fun x => value x) c -> value r ->
  valid_sphere c r = true <-> Forall (fun x => finite x = true) c /\ finite r = true /\ 0 <= V r.
Proof.
  intros c r Hc Hr. unfold valid_sphere. rewrite !andb_true_iff, (C78_point c Hc), (isfinite_iff r Hr). split.
  - intros [[H1 H2] H3]. apply (leb_V prec emax) in H3; [|done|by apply (finite_number prec emax)]. done.
  - intros (H1 & H2 & H3). split; [done|]. apply (leb_V prec emax); [done|by apply (finite_number prec emax)|done].
Qed.

(** Geometries are equal iff they have the same coordinates as real numbers, none of them NaN. *)
Definition same (x y : spec_float) : Prop := number x = true /\ number y = true /\ V x = V y.
Lemma eqb_same x y : value x -> value y -> SFeqb x y = true <-> same x y.
Proof.
  intros Hx Hy. unfold same. destruct (decide (number x = true /\ number y = true)) as [[Nx Ny]|Hn].
  - rewrite (eqb_V prec emax x y Nx Ny). naive_solver.
  - split; [|naive_solver]. intros He. exfalso. apply Hn. unfold ieee_number. rewrite Hx, Hy. destruct x, y; try done; by destruct s.
Qed.
Theorem C78_equals_point : forall l r, length l = length r -> Forall (fun x => value x) l -> Forall (fun x => value x) r ->
  equals_point l r = true <-> Forall2 same l r.
Proof.
  intros l. induction l as [|x l IH]; intros [|y r] Hlen Hl Hr; try done.
  apply Forall_cons in Hl as [Hx Hl]. apply Forall_cons in Hr as [Hy Hr]. rewrite Forall2_cons, <- (eqb_same x y Hx Hy), <- IH by (simpl in *; first [done|lia]).
  simpl. destruct (SFeqb x y); simpl; naive_solver.
Qed.
Theorem C78_equals_box : forall l r, length l = length r -> Forall (fun c => value c.1 /\ value c.2) l -> Forall (fun c => value c.1 /\ value c.2) r ->
  equals_box l r = true <-> Forall2 (fun c d => same c.1 d.1 /\ same c.2 d.2) l r.
Proof.
  intros l r Hlen Hl Hr. unfold equals_box. rewrite andb_true_iff.
  assert (H1 : equals_point (map fst l) (map fst r) = true <-> Forall2 (fun c d => same c.1 d.1) l r).
  { rewrite C78_equals_point; [apply (Forall2_fmap)|by rewrite !map_length|apply Forall_fmap..]; eapply Forall_impl; try eassumption; naive_solver. }
  assert (H2 : equals_point (map snd l) (map snd r) = true <-> Forall2 (fun c d => same c.2 d.2) l r).
  { rewrite C78_equals_point; [apply (Forall2_fmap)|by rewrite !map_length|apply Forall_fmap..]; eapply Forall_impl; try eassumption; naive_solver. }
  rewrite H1, H2. clear. split.
  - intros [A B]. induction A; inversion B; subst; constructor; naive_solver.
  - intros A. split; eapply Forall2_impl; try eassumption; naive_solver.
Qed.
Theorem C78_equals_sphere : forall l r, length l.1 = length r.1 -> Forall (fun x => value x) (l.2 :: l.1) -> Forall (fun x => value x) (r.2 :: r.1) ->
  equals_sphere l r = true <-> Forall2 same l.1 r.1 /\ same l.2 r.2.
Proof.
  intros [l a] [r b] Hlen Hl Hr. apply Forall_cons in Hl as [Ha Hl]. apply Forall_cons in Hr as [Hb Hr]. unfold equals_sphere. simpl in *.
  by rewrite andb_true_iff, C78_equals_point, eqb_same.
Qed.
End Valid.

(** binary32: a usable box, the narrowest box, a box whose extent overflows, the default box, a point as a box, NaN. *)
Notation tiny := (S754_finite false 1 (-149)).
Notation top := (float_max 24 128).
Example C78_example :
  Forall (fun c => valid_binary 24 128 c.1 = true /\ valid_binary 24 128 c.2 = true) [(f32 (-2) 0, f32 3 0); (S754_zero true, tiny); (S754_nan, top); (SFopp top, S754_infinity false)] /\
  valid_box 24 128 [(f32 (-2) 0, f32 3 0); (S754_zero true, tiny)] = true /\
  valid_box 24 128 [(f32 1 127, top)] = true /\
  valid_box 24 128 [(f32 (-2) 0, f32 3 0); (SFopp top, top)] = false /\
  valid_box 24 128 [(SFopp (f32 1 103), top)] = false /\ valid_box 24 128 [(SFopp (f32 1 102), top)] = true /\
  valid_box 24 128 [(top, SFopp top)] = false /\
  valid_box 24 128 [(f32 3 0, f32 3 0)] = false /\
  valid_box 24 128 [(S754_nan, f32 3 0)] = false /\ valid_box 24 128 [(S754_infinity true, f32 3 0)] = false.
Proof. repeat split; try (vm_compute; reflexivity). repeat (constructor; [split; vm_compute; reflexivity|]). constructor. Qed.
Example C78_point_example : Forall (fun x => valid_binary 24 128 x = true) [f32 3 0; S754_nan; S754_infinity true] /\
  valid_point [f32 3 0; tiny] = true /\ valid_point [f32 3 0; S754_nan] = false /\ valid_sphere [f32 3 0] (S754_zero true) = true /\
  valid_sphere [f32 3 0] (SFopp tiny) = false /\ valid_sphere [f32 3 0] (S754_infinity false) = false.
Proof. split; [repeat constructor|]. repeat split; vm_compute; reflexivity. Qed.
Example C78_equals_example : length [S754_zero true; f32 3 0] = length [S754_zero false; f32 3 0] /\
  equals_point [S754_zero true; f32 3 0] [S754_zero false; f32 3 0] = true /\ equals_point [S754_nan] [S754_nan] = false /\
  equals_point [tiny] [S754_zero false] = false /\ equals_point [S754_infinity true] [S754_infinity true] = true /\
  equals_box [(f32 1 0, f32 2 0)] [(f32 1 0, f32 2 0)] = true /\ equals_box [(f32 1 0, f32 2 0)] [(f32 1 0, f32 3 0)] = false /\
  equals_sphere ([f32 1 0], f32 2 0) ([f32 1 0], f32 2 0) = true /\ equals_sphere ([f32 1 0], f32 2 0) ([f32 1 0], f32 3 0) = false.
Proof. repeat split; vm_compute; reflexivity. Qed.
Print Assumptions C78_point.
Print Assumptions C78_box.
Print Assumptions C78_sphere.
Print Assumptions C78_equals_point.
Print Assumptions C78_equals_box.
Print Assumptions C78_equals_sphere.
