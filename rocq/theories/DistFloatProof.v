(** Next numbers, radii and the empty box in IEEE arithmetic. *)
From Coq Require Import Reals Lra SpecFloat.
From Flocq Require Import Core IEEE754.BinarySingleNaN.
From Verif Require Import Base HeapSpec GeomOps BoxModel BoxSpec IeeeSpec IeeeModel IeeeProof IeeeBoxProof DistFloatModel.
Local Open Scope R_scope.

Section Ieee.
Context (prec emax : Z) {Hprec : FLX.Prec_gt_0 prec} {Hmax : Prec_lt_emax prec emax}.
Notation num := (IeeeModel.num prec emax).
Notation O := (NumOps prec emax).
Notation F := (FloatOps prec emax).
Notation M := (bpow radix2 emax).
Notation raw := (raw prec emax).
Notation as_num := (as_num prec emax).
Notation finite := (ieee_finite prec emax).
Notation number := (ieee_number prec emax).
Notation sat := (IeeeProof.sat emax).
Notation rn := (IeeeProof.rn prec emax).
Notation V := (IeeeProof.V emax).
Notation val := (IeeeBoxProof.val prec emax).
Notation isfin := (IeeeBoxProof.isfin prec emax).
Notation fexp := (SpecFloat.fexp prec emax).
Notation emin := (SpecFloat.emin prec emax).
Notation fmax := (float_max prec emax).

Lemma bounded_iff m e : bounded prec emax m e = true <-> (Z.pos m < 2 ^ prec /\ emin <= e <= emax - prec /\ (e = emin \/ 2 ^ (prec - 1) <= Z.pos m))%Z.
Proof.
  unfold FLX.Prec_gt_0, Prec_lt_emax in *. unfold bounded. rewrite andb_true_iff. unfold canonical_mantissa. rewrite <- Zeq_is_eq_bool, Z.leb_le.
  unfold SpecFloat.fexp. rewrite Digits.Zpos_digits2_pos. pose proof (Digits.Zdigits_correct radix2 (Z.pos m)) as [D1 D2]. change (Z.abs (Z.pos m)) with (Z.pos m) in *. change (radix2 : Z) with 2%Z in *.
  pose proof (Digits.Zdigits_gt_0 radix2 (Z.pos m) ltac:(done)) as D0. generalize dependent (Digits.Zdigits radix2 (Z.pos m)). intros d D1 D2 D0. split.
  - intros [H1 H2]. assert (d <= prec)%Z by lia. split; [|split].
    + eapply Z.lt_le_trans; [exact D2|]. apply Z.pow_le_mono_r; lia.
    + lia.
    + destruct (Z.eq_dec e emin); [by left|right]. assert (d = prec) as E by lia. rewrite E in D1. exact D1.
  - intros (H1 & H2 & H3). assert (d <= prec)%Z as Hd.
    { destruct (Z_le_gt_dec d prec); [done|]. exfalso. assert (2 ^ prec <= 2 ^ (d - 1))%Z by (apply Z.pow_le_mono_r; lia). lia. }
    split; [|lia]. destruct H3 as [H3|H3]; [lia|]. assert (prec <= d)%Z; [|lia]. destruct (Z_le_gt_dec prec d); [done|]. exfalso.
    assert (2 ^ d <= 2 ^ (prec - 1))%Z by (apply Z.pow_le_mono_r; lia). lia.
Qed.
Lemma finite_pos m e : finite (S754_finite false m e) = true <-> bounded prec emax m e = true.
Proof. unfold ieee_finite. rewrite andb_true_iff. simpl. tauto. Qed.
Lemma V_pos m e : V (S754_finite false m e) = IZR (Z.pos m) * bpow radix2 e.
Proof. done. Qed.
Lemma ulp_pos m e : bounded prec emax m e = true -> ulp radix2 fexp (V (S754_finite false m e)) = bpow radix2 e.
Proof.
  intros H. unfold bounded in H. apply andb_true_iff in H as [H _]. apply (ulp_canonical radix2 fexp (Z.pos m) e); [done|]. exact (canonical_canonical_mantissa prec emax false m e H).
Qed.
Lemma V_format x : finite x = true -> generic_format radix2 fexp (V x).
Proof. intros (b & <- & Hb)%(finite_B prec emax). rewrite V_B by done. apply generic_format_B2R. Qed.
Lemma pow2_pos e : (0 <= e)%Z -> IZR (2 ^ e) = bpow radix2 e.
Proof. intros H. by rewrite <- (IZR_Zpower radix2 e H). Qed.

Lemma fmax_val : finite fmax = true /\ V fmax = M - bpow radix2 (emax - prec) /\ ulp radix2 fexp (V fmax) = bpow radix2 (emax - prec).
Proof.
  destruct (max_finite_ok prec emax) as (H1 & _ & _). split; [exact H1|]. split; [|apply ulp_pos; by apply finite_pos].
  unfold float_max. rewrite V_pos.
  assert (IZR (Z.pos (shift_pos (Z.to_pos prec) 1 - 1)) = bpow radix2 prec - 1) as ->.
  { rewrite Pos2Z.inj_sub, minus_IZR.
    - rewrite shift_pos_correct, Z.mul_1_r, Z.pow_pos_fold, Z2Pos.id by (exact Hprec). rewrite (IZR_Zpower radix2); [done|]. unfold FLX.Prec_gt_0 in *. lia.
    - change (Z.pos 1 < Z.pos (shift_pos (Z.to_pos prec) 1))%Z. rewrite shift_pos_correct, Z.mul_1_r, Z.pow_pos_fold, Z2Pos.id by (exact Hprec). by apply (Zpower_gt_1 radix2). }
  rewrite Rmult_minus_distr_r, Rmult_1_l, <- bpow_plus. replace (prec + (emax - prec))%Z with emax by lia. lra.
Qed.
Lemma fmax_top x : finite x = true -> V x <= V fmax.
Proof. intros H. destruct (max_finite_ok prec emax) as (_ & _ & H3). apply H3. done. Qed.

(** The next number above a finite x with 0 <= x < finite_max is its successor in the format. *)
Lemma next_up_val x : finite x = true -> 0 <= V x -> V x < V fmax -> finite (next_up prec emax x) = true /\ V (next_up prec emax x) = Ulp.succ radix2 fexp (V x).
Proof.
  intros Hf H0 Hlt. rewrite succ_eq_pos by done. pose proof Hprec as HP1. pose proof Hmax as HM1. unfold FLX.Prec_gt_0, Prec_lt_emax in HP1, HM1. destruct x as [s|s| |[] m e]; cbn [next_up].
  - split.
    + apply finite_pos, bounded_iff. assert (2 ^ 1 <= 2 ^ prec)%Z by (apply Z.pow_le_mono_r; lia). unfold SpecFloat.emin. lia.
    + rewrite V_pos. change (V (S754_zero s)) with 0. change fexp with (FLT_exp emin prec). rewrite (ulp_FLT_0 radix2 emin prec). lra.
  - unfold ieee_finite in Hf. by rewrite andb_false_r in Hf.
  - unfold ieee_finite in Hf. by rewrite andb_false_r in Hf.
  - exfalso. assert (V (S754_finite true m e) < 0) by (apply F2R_lt_0; simpl; lia). lra.
  - apply finite_pos in Hf. pose proof Hf as HB. apply bounded_iff in HB as (B1 & B2 & B3). rewrite (ulp_pos m e Hf). destruct (Z.eqb_spec (Z.pos m + 1) (2 ^ prec)) as [E|E].
    + destruct (Z.eqb_spec e (emax - prec)) as [E2|E2].
      * exfalso. rewrite V_pos in Hlt. rewrite (proj1 (proj2 fmax_val)) in Hlt. subst e. replace (Z.pos m) with (2 ^ prec - 1)%Z in Hlt by lia. rewrite minus_IZR, pow2_pos in Hlt by lia.
        rewrite Rmult_minus_distr_r, Rmult_1_l, <- bpow_plus in Hlt. replace (prec + (emax - prec))%Z with emax in Hlt by lia. lra.
      * assert (0 < 2 ^ (prec - 1))%Z as P by (apply Z.pow_pos_nonneg; lia). assert (2 ^ prec = 2 * 2 ^ (prec - 1))%Z as P2 by (rewrite <- Z.pow_succ_r by lia; f_equal; lia). split.
        -- apply finite_pos, bounded_iff. rewrite Z2Pos.id by done. lia.
        -- rewrite !V_pos. rewrite Z2Pos.id by done. replace (Z.pos m) with (2 ^ prec - 1)%Z by lia. rewrite minus_IZR, !pow2_pos by lia.
           rewrite Rmult_minus_distr_r, Rmult_1_l, <- !bpow_plus. replace (prec - 1 + (e + 1))%Z with (prec + e)%Z by lia. lra.
    + split; [apply finite_pos, bounded_iff; lia|]. rewrite !V_pos. rewrite Pos2Z.inj_add, plus_IZR. lra.
Qed.
(** ... and likewise for the negative ones. *)
Lemma V_neg m e : V (S754_finite true m e) = - V (S754_finite false m e).
Proof. simpl. change (Z.neg m) with (- Z.pos m)%Z. by rewrite F2R_Zopp. Qed.
Lemma finite_neg m e : finite (S754_finite true m e) = true <-> bounded prec emax m e = true.
Proof. unfold ieee_finite. rewrite andb_true_iff. simpl. tauto. Qed.
Lemma mag_pos m e : bounded prec emax m e = true -> (mag radix2 (V (S754_finite false m e)) : Z) = (Digits.Zdigits radix2 (Z.pos m) + e)%Z.
Proof. intros _. apply (mag_F2R_Zdigits radix2 (Z.pos m) e). done. Qed.
Lemma pred_val m e : bounded prec emax m e = true ->
  Ulp.pred radix2 fexp (V (S754_finite false m e)) =
  if Z.eqb e emin then IZR (Z.pos m - 1) * bpow radix2 e else if Z.eqb (Z.pos m) (2 ^ (prec - 1)) then IZR (2 ^ prec - 1) * bpow radix2 (e - 1) else IZR (Z.pos m - 1) * bpow radix2 e.
Proof.
  intros HB. pose proof Hprec as HP1. pose proof Hmax as HM1. unfold FLX.Prec_gt_0, Prec_lt_emax in HP1, HM1. pose proof (mag_pos m e HB) as HG. pose proof (ulp_pos m e HB) as HU.
  pose proof HB as HB'. apply bounded_iff in HB' as (B1 & B2 & B3). pose proof (Digits.Zdigits_correct radix2 (Z.pos m)) as [D1 D2]. change (Z.abs (Z.pos m)) with (Z.pos m) in D1, D2. change (radix2 : Z) with 2%Z in D1, D2.
  pose proof (Digits.Zdigits_gt_0 radix2 (Z.pos m) ltac:(done)) as D0. generalize dependent (Digits.Zdigits radix2 (Z.pos m)). intros d HG D1 D2 D0.
  assert (0 < V (S754_finite false m e)) as Hpos by (apply F2R_gt_0; done).
  assert (IZR (Z.pos m - 1) * bpow radix2 e = V (S754_finite false m e) - bpow radix2 e) as E1 by (rewrite V_pos, minus_IZR; lra).
  assert (d <= prec)%Z as Hd. { destruct (Z_le_gt_dec d prec); [done|]. exfalso. assert (2 ^ prec <= 2 ^ (d - 1))%Z by (apply Z.pow_le_mono_r; lia). lia. }
  rewrite pred_eq_pos by lra. unfold pred_pos. rewrite HG, HU. destruct (Z.eqb_spec e emin) as [E|E].
  - rewrite E1. assert (fexp (d + e - 1) = e) as -> by (unfold SpecFloat.fexp; lia). by destruct Req_bool.
  - destruct B3 as [B3|B3]; [done|]. assert (d = prec) as ->.
    { destruct (Z_lt_ge_dec d prec); [|lia]. exfalso. assert (2 ^ d <= 2 ^ (prec - 1))%Z by (apply Z.pow_le_mono_r; lia). lia. }
    assert (2 ^ prec = 2 * 2 ^ (prec - 1))%Z as P2 by (rewrite <- Z.pow_succ_r by lia; f_equal; lia).
    destruct (Z.eqb_spec (Z.pos m) (2 ^ (prec - 1))) as [E2|E2].
    + assert (V (S754_finite false m e) = bpow radix2 (prec + e - 1)) as EV. { rewrite V_pos, E2, pow2_pos, <- bpow_plus by lia. f_equal. lia. }
      rewrite EV. rewrite Req_bool_true by done. assert (fexp (prec + e - 1) = e - 1)%Z as -> by (unfold SpecFloat.fexp; lia).
      rewrite minus_IZR, pow2_pos by lia. rewrite Rmult_minus_distr_r, Rmult_1_l, <- bpow_plus. replace (prec + (e - 1))%Z with (prec + e - 1)%Z by lia. done.
    + rewrite Req_bool_false; [lra|]. intros EV. rewrite V_pos in EV. replace (prec + e - 1)%Z with ((prec - 1) + e)%Z in EV by lia. rewrite bpow_plus in EV.
      apply Rmult_eq_reg_r in EV; [|pose proof (bpow_gt_0 radix2 e); lra]. rewrite <- pow2_pos in EV by lia. apply eq_IZR in EV. done.
Qed.
Lemma next_up_neg m e : finite (S754_finite true m e) = true ->
  finite (next_up prec emax (S754_finite true m e)) = true /\ V (next_up prec emax (S754_finite true m e)) = Ulp.succ radix2 fexp (V (S754_finite true m e)).
Proof.
  intros Hf. pose proof Hprec as HP1. pose proof Hmax as HM1. unfold FLX.Prec_gt_0, Prec_lt_emax in HP1, HM1. apply finite_neg in Hf.
  rewrite V_neg, succ_opp, (pred_val m e Hf). pose proof Hf as HB. apply bounded_iff in HB as (B1 & B2 & B3). cbn [next_up].
  assert (0 < 2 ^ (prec - 1))%Z as P by (apply Z.pow_pos_nonneg; lia). assert (2 ^ prec = 2 * 2 ^ (prec - 1))%Z as P2 by (rewrite <- Z.pow_succ_r by lia; f_equal; lia).
  destruct (Z.eqb_spec e emin) as [E|E].
  - destruct (Pos.eqb_spec m 1) as [->|Hm]; [split; [done|]; change (V (S754_zero true)) with 0; change (1 - 1)%Z with 0%Z; lra|]. split; [apply finite_neg, bounded_iff; lia|]. rewrite V_neg, V_pos. rewrite Pos2Z.inj_sub by lia. done.
  - destruct B3 as [B3|B3]; [done|]. destruct (Z.eqb_spec (Z.pos m) (2 ^ (prec - 1))) as [E2|E2].
    + split; [apply finite_neg, bounded_iff; rewrite Z2Pos.id by lia; lia|]. rewrite V_neg, V_pos. rewrite Z2Pos.id by lia. done.
    + split; [apply finite_neg, bounded_iff; lia|]. rewrite V_neg, V_pos. rewrite Pos2Z.inj_sub by lia. done.
Qed.
Lemma next_up_any x : finite x = true -> V x < V fmax -> finite (next_up prec emax x) = true /\ V (next_up prec emax x) = Ulp.succ radix2 fexp (V x).
Proof.
  intros Hf Hlt. destruct (Rle_or_lt 0 (V x)) as [H0|H0]; [by apply next_up_val|]. destruct x as [s|s| |[] m e].
  - simpl in H0. lra.
  - unfold ieee_finite in Hf. by rewrite andb_false_r in Hf.
  - unfold ieee_finite in Hf. by rewrite andb_false_r in Hf.
  - by apply next_up_neg.
  - assert (0 < V (S754_finite false m e)) by (apply F2R_gt_0; done). lra.
Qed.

(** pred D <= D - ulp D / 2 *)
Lemma pred_half D : 0 < D -> Ulp.pred radix2 fexp D <= D - ulp radix2 fexp D / 2.
Proof.
  intros HD. rewrite pred_eq_pos by lra. unfold pred_pos. pose proof (ulp_ge_0 radix2 fexp D). destruct (Req_bool_spec D (bpow radix2 (mag radix2 D - 1))) as [E|E]; [|lra].
  rewrite ulp_neq_0 by lra. unfold cexp. enough (bpow radix2 (fexp (mag radix2 D)) <= 2 * bpow radix2 (fexp (mag radix2 D - 1))) by lra.
  change 2 with (bpow radix2 1). rewrite <- bpow_plus. apply bpow_le. unfold SpecFloat.fexp. lia.
Qed.
Lemma expand_exact D r rho : generic_format radix2 fexp D -> generic_format radix2 fexp r -> 0 <= r -> 0 <= D -> rn (D - r) <= rho -> 0 <= rho ->
  D <= rn (r + rho) \/ D <= Ulp.succ radix2 fexp (rn (r + rho)).
Proof.
  intros GD Gr Hr HD H Hrho. destruct (Rle_or_lt D r) as [Hc|Hc].
  - left. assert (rn r <= rn (r + rho)) as Hm by (apply (rn_mono prec emax); lra). unfold IeeeProof.rn in Hm at 1. rewrite (round_generic radix2 fexp ZnearestE r) in Hm by done. lra.
  - right. set (t := D - r) in *. assert (0 < t) as Ht by (unfold t; lra).
    pose proof (error_le_half_ulp radix2 fexp (fun x => negb (Z.even x)) t) as HE. change (round radix2 fexp (Znearest (fun x => negb (Z.even x))) t) with (rn t) in HE. apply Rabs_le_inv in HE.
    assert (ulp radix2 fexp t <= ulp radix2 fexp D) as HU. { apply ulp_le; [typeclasses eauto|typeclasses eauto|]. rewrite !Rabs_pos_eq by (unfold t in *; lra). unfold t. lra. }
    pose proof (pred_half D ltac:(lra)) as HP. assert (Ulp.pred radix2 fexp D <= r + rho) as H1 by (unfold t in *; lra).
    assert (generic_format radix2 fexp (Ulp.pred radix2 fexp D)) as GP by (by apply generic_format_pred; [typeclasses eauto|]).
    apply (rn_mono prec emax) in H1. unfold IeeeProof.rn in H1 at 1. rewrite (round_generic radix2 fexp ZnearestE (Ulp.pred radix2 fexp D)) in H1 by done.
    rewrite <- (succ_pred radix2 fexp D GD) at 1. apply succ_le; [typeclasses eauto|done| |done]. apply generic_format_round; typeclasses eauto.
Qed.

(** Phase II of a query with a sphere: the enlarged sphere reaches every box at distance D whose distance from the sphere, as computed,
    is at most rho. *)
Lemma radius_reaches D r rho : finite D = true -> finite r = true -> number rho = true -> 0 <= V D -> 0 <= V r -> sat (rn (V D - V r)) <= V rho -> 0 <= V rho ->
  SFleb D (radius_around_sphere prec emax r rho) = true.
Proof.
  intros FD Fr Nrho HD Hr H Hrho. pose proof (finite_number prec emax _ FD) as ND. destruct (fmax_val) as (Ff & Vf & _). pose proof (finite_number prec emax _ Ff) as Nf.
  destruct (add_V prec emax r rho (finite_number prec emax _ Fr) Nrho Hr Hrho) as [NS VS]. set (S := SFadd prec emax r rho) in *.
  unfold radius_around_sphere. fold S. unfold nextafter. pose proof (fmax_top D FD) as HDf. pose proof (V_finite prec emax D FD) as BD. pose proof (V_finite prec emax r Fr) as Br.
  pose proof (M_pos prec emax) as HM.
  assert (0 <= V S) as S0. { rewrite VS. apply (sat_rn_nonneg prec emax). lra. }
  destruct (SFeqb S fmax) eqn:E1; [by apply (leb_V prec emax)|].
  destruct (nonneg_inf prec emax S NS S0) as [FS|ES].
  - assert (V S < V fmax) as HS. { pose proof (fmax_top S FS). destruct (Req_dec (V S) (V fmax)) as [E|E]; [|lra]. apply (eqb_V prec emax) in E; [congruence|done..]. }
    rewrite (proj2 (ltb_V prec emax S fmax NS Nf) HS). destruct (next_up_val S FS S0 HS) as [FN VN].
    apply (leb_V prec emax); [done|by apply finite_number|]. rewrite VN.
    assert (V S = rn (V r + V rho)) as VS'. { pose proof (V_finite prec emax S FS). rewrite VS. unfold IeeeProof.sat in *. rewrite VS in H0. unfold Rmax, Rmin in *. repeat destruct Rle_dec; lra. }
    assert (rn (V D - V r) <= V rho) as H'.
    { assert (rn (V D - V r) <= V D) as HA. { rewrite <- (round_generic radix2 fexp ZnearestE (V D)) at 2 by (by apply V_format). apply (rn_mono prec emax). lra. }
      unfold IeeeProof.sat in H. unfold Rmax, Rmin in H. repeat destruct Rle_dec; lra. }
    rewrite VS'. destruct (expand_exact (V D) (V r) (V rho) (V_format D FD) (V_format r Fr) Hr HD H' Hrho) as [Hc|Hc]; [|done].
    eapply Rle_trans; [exact Hc|]. apply succ_ge_id.
  - rewrite ES. change (SFltb (S754_infinity false) fmax) with false. cbn [SFopp negb next_up]. change (SFopp (SFopp fmax)) with fmax. by apply (leb_V prec emax).
Qed.

(** The empty box: infinitely far from every finite point. *)
Lemma far_from_max x : (2 <= prec)%Z -> finite x = true -> V x < V fmax -> bpow radix2 (emax - prec) <= V fmax - V x.
Proof.
  intros H2 Fx Hlt. destruct fmax_val as (Ff & Vf & Uf). pose proof (pred_ge_gt radix2 fexp _ _ (V_format x Fx) (V_format _ Ff) Hlt) as HP.
  unfold Prec_lt_emax in *. assert (bpow radix2 (emax - prec) <= bpow radix2 (emax - 2)) as HB by (apply bpow_le; lia).
  assert (M = 4 * bpow radix2 (emax - 2)) as E4. { replace emax with (2 + (emax - 2))%Z at 1 by lia. rewrite bpow_plus. done. }
  pose proof (bpow_gt_0 radix2 (emax - 2)) as HB0. pose proof (bpow_gt_0 radix2 (emax - prec)).
  rewrite pred_eq_pos in HP by lra. unfold pred_pos in HP. destruct (Req_bool_spec (V fmax) (bpow radix2 (mag radix2 (V fmax) - 1))) as [E|E]; [|lra].
  exfalso. assert (bpow radix2 (emax - 1) < V fmax < bpow radix2 emax) as [L1 L2].
  { replace (emax - 1)%Z with (1 + (emax - 2))%Z by lia. rewrite (bpow_plus radix2 1). change (bpow radix2 1) with 2. lra. }
  rewrite E in L1, L2. apply lt_bpow in L1, L2. lia.
Qed.
Lemma far_diff x c : (2 <= prec)%Z -> isfin x -> c = (max_num prec emax, min_num prec emax) ->
  bpow radix2 (emax - prec) <= Rabs (val (o_sub O (if o_ltb O x c.1 then c.1 else if o_ltb O c.2 x then c.2 else x) x)).
Proof.
  intros H2 Fx ->. cbn [fst snd]. destruct (max_fin prec emax) as [F1 F2]. destruct fmax_val as (Ff & Vf & Uf). pose proof (max_val prec emax x Fx) as [L1 L2].
  assert (val (max_num prec emax) = V fmax) as Emax. { unfold IeeeBoxProof.val, max_num. by rewrite raw_as by (by apply finite_number). }
  assert (val (min_num prec emax) = - V fmax) as Emin.
  { unfold IeeeBoxProof.val, min_num. destruct (max_finite_ok prec emax) as (_ & H' & _). rewrite raw_as by (by apply finite_number). unfold float_max. simpl. change (Z.neg ?p) with (- Z.pos p)%Z. by rewrite F2R_Zopp. }
  assert (0 <= emax - prec)%Z as He by (unfold Prec_lt_emax in *; lia).
  assert (bpow radix2 (emax - prec) < M) as HBM by (apply bpow_lt; unfold FLX.Prec_gt_0 in *; lia).
  assert (forall t, bpow radix2 (emax - prec) <= t -> bpow radix2 (emax - prec) <= sat (rn t)) as Hb.
  { intros t Ht. apply (rn_mono prec emax) in Ht. rewrite (rn_bpow prec emax) in Ht by done. unfold IeeeProof.sat, Rmax, Rmin. pose proof (M_pos prec emax). repeat destruct Rle_dec; lra. }
  pose proof (bpow_gt_0 radix2 (emax - prec)) as HB0.
  destruct (o_ltb O x (max_num prec emax)) eqn:E1.
  - apply (ltb_val prec emax) in E1. rewrite Emax in E1. rewrite (proj2 (sub_val prec emax _ x F1 Fx)), Emax. pose proof (Hb _ (far_from_max (raw x) H2 Fx E1)) as H. fold (val x) in H. rewrite Rabs_pos_eq; lra.
  - apply (ltb_false prec emax) in E1. assert (val x = V fmax) as Ex by lra. 
    assert (bpow radix2 (emax - prec) <= V fmax) as HF.
    { rewrite Vf. assert (2 * bpow radix2 (emax - prec) <= M); [|lra]. change 2 with (bpow radix2 1). rewrite <- bpow_plus. apply bpow_le. lia. }
    assert (o_ltb O (min_num prec emax) x = true) as ->. { apply (ltb_val prec emax). lra. }
    rewrite (proj2 (sub_val prec emax _ x F2 Fx)), Emin, Ex. replace (- V fmax - V fmax) with (- (V fmax + V fmax)) by lra. rewrite (rn_opp prec emax), (sat_opp prec emax), Rabs_Ropp.
    pose proof (Hb (V fmax + V fmax) ltac:(lra)). rewrite Rabs_pos_eq; lra.
Qed.
Notation step := (fun s d => o_add O s (o_mul O d d)).
Lemma sum_far ds : forall s, val s = M -> val (foldl step s ds) = M.
Proof.
  induction ds as [|d ds IH]; intros s Hs; [done|]. cbn [foldl]. apply IH. pose proof (M_pos prec emax). pose proof (term_nonneg prec emax d).
  rewrite (proj2 (add_val prec emax s _ ltac:(lra) ltac:(done))). apply (sat_rn_big prec emax). lra.
Qed.
Lemma empty_far DIM p : (2 <= prec)%Z -> (2 * prec <= emax)%Z -> (1 <= DIM)%nat -> length p = DIM -> Forall isfin p ->
  distance_pb O p (empty_box DIM (min_num prec emax) (max_num prec emax)) = inf_num prec emax.
Proof.
  intros H2 He HD HL Hp. apply (raw_inj prec emax). rewrite (proj1 (inf_val prec emax)).
  assert (forall x, number x = true -> V x = M -> x = S754_infinity false) as Hinf.
  { intros x Hx Hv. pose proof (M_pos prec emax). destruct (number_cases prec emax x Hx) as [Fx|[->| ->]]; [pose proof (V_finite prec emax x Fx); lra| |done]. simpl in Hv. lra. }
  destruct p as [|x p]; [simpl in HL; lia|]. destruct DIM as [|DIM]; [lia|]. inversion Hp as [|? ? Hx Hp']; subst.
  unfold distance_pb, distance_pp, sum_squares. cbn [empty_box replicate closest_box zip_with foldl].
  set (d := o_sub O _ x). assert (bpow radix2 (emax - prec) <= Rabs (val d)) as Hd by (by apply (far_diff x (max_num prec emax, min_num prec emax))).
  assert (val (o_mul O d d) = M) as Hm.
  { rewrite (proj2 (sq_val prec emax d)). apply (sat_rn_big prec emax). rewrite <- (Rabs_pos_eq (val d * val d)) by nra. rewrite Rabs_mult.
    apply Rle_trans with (bpow radix2 (emax - prec) * bpow radix2 (emax - prec)); [|apply Rmult_le_compat; (done || apply bpow_ge_0)]. rewrite <- bpow_plus. apply bpow_le. lia. }
  pose proof (M_pos prec emax) as HM. destruct (zero_val prec emax) as [_ Z2].
  assert (val (o_add O (o_zero O) (o_mul O d d)) = M) as Hs. { rewrite (proj2 (add_val prec emax (o_zero O) (o_mul O d d) ltac:(rewrite Z2; lra) ltac:(lra))). apply (sat_rn_big prec emax). lra. }
  match goal with |- raw (o_sqrt O (foldl _ _ ?l)) = _ => pose proof (sum_far l _ Hs) as HS; generalize dependent (foldl step (o_add O (o_zero O) (o_mul O d d)) l) end.
  intros s HS. rewrite (proj1 (sqrt_val prec emax s ltac:(lra))). rewrite (Hinf (raw s)); [done|apply raw_number|exact HS].
Qed.
End Ieee.
