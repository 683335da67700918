(** C72 for tetrahedra: the sum of four coordinates divided by four stays between the least and the greatest of them. *)
From Coq Require Import Reals Lra SpecFloat.
From Flocq Require Import Core IEEE754.BinarySingleNaN.
From Verif Require Import Base GeomOps BoxModel BoxSpec MortonFloatModel BuildFloatModel IeeeSpec IeeeProof BuildFloatProof BuildFloatTreeProof PropertiesIeee PropertiesBuildFloat.
From Coq Require Import Lra.
Local Open Scope R_scope.

Section Quad.
Context (prec emax : Z) {Hprec : FLX.Prec_gt_0 prec} {Hmax : Prec_lt_emax prec emax}.
Notation fexp := (SpecFloat.fexp prec emax).
Notation rn := (IeeeProof.rn prec emax).
Notation format := (generic_format radix2 fexp).
Notation bp := (bpow radix2).

Lemma fexp_mono a b : (a <= b)%Z -> (fexp a <= fexp b)%Z.
Proof. unfold SpecFloat.fexp. lia. Qed.
Lemma fexp_shift a k : (0 <= k)%Z -> (fexp (a + k) <= fexp a + k)%Z.
Proof. unfold SpecFloat.fexp, SpecFloat.emin. lia. Qed.
Lemma format_shift a k : (0 <= k)%Z -> format a -> format (a * bp k).
Proof.
  intros Hk Ha. destruct (Req_dec a 0) as [->|Hn]; [rewrite Rmult_0_l; apply generic_format_0|].
  rewrite Ha. unfold F2R. cbn [Fnum Fexp]. rewrite Rmult_assoc, <- bpow_plus.
  set (z := Ztrunc _). set (e := (cexp radix2 fexp a + k)%Z).
  change (format (F2R (Float radix2 z e))). apply generic_format_F2R. intros Hz. unfold cexp.
  assert (F2R (Float radix2 z e) = a * bp k) as ->.
  { unfold F2R. cbn [Fnum Fexp]. unfold e. rewrite bpow_plus, <- Rmult_assoc. f_equal. symmetry. exact Ha. }
  rewrite mag_mult_bpow by done. unfold e, cexp. by apply fexp_shift.
Qed.
Lemma near_even K th : -/2 <= th <= /2 -> (th = /2 \/ th = -/2 -> Z.even K = true) -> ZnearestE (IZR K + th) = K.
Proof.
  intros Hth He. destruct (Req_dec th (/2)) as [->|H1]; [|destruct (Req_dec th (-/2)) as [->|H2]].
  - unfold Znearest. assert (Zfloor (IZR K + /2) = K) as -> by (apply Zfloor_imp; rewrite plus_IZR; simpl; lra).
    rewrite Rcompare_Eq by lra. by rewrite He by auto.
  - unfold Znearest. assert (Zfloor (IZR K + -/2) = (K - 1)%Z) as Hf by (apply Zfloor_imp; rewrite plus_IZR, minus_IZR; simpl; lra).
    rewrite Hf, minus_IZR, Rcompare_Eq by lra. rewrite Z.even_sub, He by auto. cbn.
    rewrite Zceil_floor_neq; rewrite Hf; [lia|rewrite minus_IZR; lra].
  - apply Znearest_imp. apply Rabs_lt. lra.
Qed.
Lemma quad_pos a : (2 <= prec)%Z -> format a -> 0 < a -> rn (rn (3 * a) + a) = 4 * a.
Proof.
  intros HP Ha Hpos. set (mu := mag radix2 a : Z).
  assert (Hmu : bp (mu - 1) <= a < bp mu). { unfold mu. destruct (mag radix2 a) as [m Hm]. cbn. assert (Hm' : a <> 0) by lra. apply Hm in Hm'. by rewrite Rabs_pos_eq in Hm' by lra. }
  assert (F4 : format (4 * a)). { replace (4 * a) with (a * bp 2) by (simpl; lra). by apply format_shift. }
  assert (M4 : (mag radix2 (4 * a) : Z) = (mu + 2)%Z). { replace (4 * a) with (a * bp 2) by (simpl; lra). rewrite mag_mult_bpow by lra. done. }
  set (E := fexp (mu + 2)). assert (C4 : cexp radix2 fexp (4 * a) = E) by (unfold cexp; by rewrite M4).
  assert (HE : (E <= mu + 1)%Z). { pose proof (mag_generic_gt radix2 fexp (4 * a) ltac:(lra) F4) as H. rewrite C4, M4 in H. lia. }
  pose proof (bpow_gt_0 radix2 E) as Hg.
  destruct (Req_dec a (bp (mu - 1))) as [Hp|Hnp].
  - (* a power of two: three times it is a number *)
    assert (F3 : format (3 * a)).
    { rewrite Hp. change (format (F2R (Float radix2 3 (mu - 1)))). apply generic_format_F2R. intros _. unfold cexp.
      rewrite mag_F2R by lia. assert ((mag radix2 3 : Z) = 2%Z) as -> by (apply mag_unique_pos; simpl; lra).
      assert (fexp mu <= mu - 1)%Z. { pose proof (mag_generic_gt radix2 fexp a ltac:(lra) Ha) as H. unfold cexp in H. fold mu in H. lia. }
      unfold SpecFloat.fexp in *. lia. }
    unfold IeeeProof.rn. rewrite (round_generic _ _ _ (3 * a)) by done. replace (3 * a + a) with (4 * a) by lra. by apply round_generic; [typeclasses eauto|].
  - set (x := rn (3 * a)). set (K := Ztrunc (scaled_mantissa radix2 fexp (4 * a))).
    assert (HK : 4 * a = IZR K * bp E). { rewrite F4 at 1. unfold F2R. cbn [Fnum Fexp]. by rewrite C4. }
    assert (H3 : (cexp radix2 fexp (3 * a) <= E)%Z). { unfold cexp, E. apply fexp_mono. rewrite <- M4. apply mag_le; lra. }
    assert (Herr : Rabs (x - 3 * a) <= / 2 * bp (cexp radix2 fexp (3 * a))).
    { unfold x, IeeeProof.rn. rewrite <- ulp_neq_0 by lra. apply error_le_half_ulp. typeclasses eauto. }
    assert (Herr' : Rabs (x - 3 * a) <= / 2 * bp E). { eapply Rle_trans; [exact Herr|]. apply Rmult_le_compat_l; [lra|]. by apply bpow_le. }
    set (th := (x - 3 * a) * bp (- E)).
    assert (Hb1 : bp E * bp (- E) = 1) by (rewrite <- bpow_plus; replace (E + - E)%Z with 0%Z by lia; done).
    pose proof (bpow_gt_0 radix2 (- E)) as Hg'.
    assert (Hth : -/2 <= th <= /2).
    { apply Rabs_le_inv. unfold th. rewrite Rabs_mult, (Rabs_pos_eq (bp (- E))) by lra.
      replace (/2) with (/2 * bp E * bp (- E)) by (rewrite Rmult_assoc, Hb1; lra). by apply Rmult_le_compat_r; [lra|]. }
    assert (Hx : x + a = (IZR K + th) * bp E).
    { unfold th. rewrite Rmult_plus_distr_r, <- HK, Rmult_assoc, (Rmult_comm (bp (- E))), Hb1. lra. }
    (* the next lower power of two is at least one unit below 4 a *)
    assert (Hgap : forall p q : Z, IZR p * bp E < IZR q * bp E -> IZR p * bp E + bp E <= IZR q * bp E).
    { intros p q Hlt. apply Rmult_lt_reg_r, lt_IZR in Hlt; [|done]. assert (IZR (p + 1) <= IZR q) as Hle by (apply IZR_le; lia). rewrite plus_IZR in Hle.
      apply Rmult_le_compat_r with (r := bp E) in Hle; lra. }
    assert (Hpow : forall k, (E <= k)%Z -> bp k = IZR (radix2 ^ (k - E)) * bp E).
    { intros k Hk. rewrite IZR_Zpower by lia. rewrite <- bpow_plus. f_equal. lia. }
    assert (Hlow : bp (mu + 1) + bp E <= 4 * a).
    { assert (bp (mu + 1) < 4 * a) as Hlt. { replace (mu + 1)%Z with (2 + (mu - 1))%Z by lia. rewrite bpow_plus. simpl. lra. }
      revert Hlt. rewrite HK, (Hpow (mu + 1)%Z) by lia. apply Hgap. }
    assert (Hhigh : 4 * a <= bp (mu + 2) - bp E).
    { assert (4 * a < bp (mu + 2)) as Hlt. { replace (mu + 2)%Z with (2 + mu)%Z by lia. rewrite bpow_plus. simpl. lra. }
      revert Hlt. rewrite HK, (Hpow (mu + 2)%Z) by lia. intros Hlt%Hgap. lra. }
    assert (Mx : (mag radix2 (x + a) : Z) = (mu + 2)%Z).
    { apply mag_unique_pos. replace (mu + 2 - 1)%Z with (mu + 1)%Z by lia.
      assert (x + a = 4 * a + (x - 3 * a)) as -> by lra. apply Rabs_le_inv in Herr'. lra. }
    assert (Cx : cexp radix2 fexp (x + a) = E) by (unfold cexp; by rewrite Mx).
    unfold IeeeProof.rn, round, scaled_mantissa. rewrite Cx, Hx, Rmult_assoc, Hb1, Rmult_1_r. rewrite near_even; [unfold F2R; cbn [Fnum Fexp]; by rewrite HK|done|].
    (* a tie: 3 a is halfway between multiples of the unit, so K is even *)
    intros Htie.
    assert (Hc : cexp radix2 fexp (3 * a) = E).
    { apply Z.le_antisymm; [done|]. apply Z.nlt_ge. intros Hlt.
      assert (Rabs (x - 3 * a) = / 2 * bp E) as Heq.
      { assert (x - 3 * a = th * bp E) as ->. { unfold th. rewrite Rmult_assoc, (Rmult_comm (bp (- E))), Hb1. lra. }
        rewrite Rabs_mult, (Rabs_pos_eq (bp E)) by lra. f_equal. destruct Htie as [-> | ->]; [apply Rabs_pos_eq; lra|]. rewrite Rabs_Ropp. apply Rabs_pos_eq. lra. }
      apply (bpow_lt radix2) in Hlt. lra. }
    set (X := ZnearestE (scaled_mantissa radix2 fexp (3 * a))).
    assert (HX : x = IZR X * bp E). { unfold x, IeeeProof.rn, round, F2R. cbn [Fnum Fexp]. by rewrite Hc. }
    assert (3 * IZR K = 4 * IZR X - 4 * th) as Heq.
    { assert (x - 3 * a = th * bp E) as Hd. { unfold th. rewrite Rmult_assoc, (Rmult_comm (bp (- E))), Hb1. lra. }
      rewrite HX in Hd. apply Rmult_eq_reg_r with (bp E); [|lra]. lra. }
    assert (3 * K = 4 * X - 2 \/ 3 * K = 4 * X + 2)%Z as Hz.
    { destruct Htie as [Ht|Ht]; rewrite Ht in Heq; [left|right]; apply eq_IZR; rewrite ?minus_IZR, ?plus_IZR, !mult_IZR; simpl; lra. }
    apply Z.even_spec. destruct Hz; [exists (2 * X - 1 - K)%Z|exists (2 * X + 1 - K)%Z]; lia.
Qed.
Lemma quad a : (2 <= prec)%Z -> format a -> rn (rn (rn (a + a) + a) + a) = 4 * a.
Proof.
  intros HP Ha. assert (rn (a + a) = 2 * a) as ->.
  { unfold IeeeProof.rn. rewrite round_generic; [lra|typeclasses eauto|]. replace (a + a) with (a * bp 1) by (simpl; lra). by apply format_shift. }
  replace (2 * a + a) with (3 * a) by lra. destruct (Rtotal_order a 0) as [H|[->|H]].
  - replace (3 * a) with (- (3 * - a)) by lra. rewrite (rn_opp prec emax). replace (- rn (3 * - a) + a) with (- (rn (3 * - a) + - a)) by lra.
    rewrite (rn_opp prec emax), quad_pos; [lra|done|by apply generic_format_opp|lra].
  - rewrite Rmult_0_r, (rn_0 prec emax), Rplus_0_r, (rn_0 prec emax). lra.
  - by apply quad_pos.
Qed.
End Quad.

(** ** C72: tetrahedra *)
Section Fmt.
Context (f : fmt) (Hf : f = binary32 \/ f = binary64).
Local Instance cok : OkFmt f := ltac:(destruct Hf as [-> | ->]; apply _).
Notation P := (f_prec f).
Notation E := (f_emax f).
Lemma add_exact x y : ffinite f x -> ffinite f y -> ffinite f (SFadd P E x y) -> Vf f (SFadd P E x y) = rn P E (Vf f x + Vf f y).
Proof.
  intros Hx Hy Hs. destruct (add_finite P E x y Hx Hy) as [_ Es]. pose proof (V_finite _ _ _ Hs) as Bs. revert Bs. rewrite Es. unfold sat, Rmax, Rmin. pose proof (M_pos P E). repeat destruct Rle_dec; lra.
Qed.
Lemma quarter_between x y z w lo hi : ffinite f x -> ffinite f y -> ffinite f z -> ffinite f w -> ffinite f lo -> ffinite f hi ->
  ffinite f (SFadd P E x y) -> ffinite f (SFadd P E (SFadd P E x y) z) -> ffinite f (SFadd P E (SFadd P E (SFadd P E x y) z) w) ->
  Forall (fun v => Vf f lo <= Vf f v <= Vf f hi) [x; y; z; w] ->
  let m := SFdiv P E (SFadd P E (SFadd P E (SFadd P E x y) z) w) (f_int f 4) in ffinite f m /\ Vf f lo <= Vf f m <= Vf f hi.
Proof.
  intros Hx Hy Hz Hw Hlo Hhi H1 H2 H3 HF. rewrite !Forall_cons in HF. destruct HF as (B1 & B2 & B3 & B4 & _).
  assert (HP : (2 <= P)%Z) by (destruct Hf as [-> | ->]; cbn; lia).
  assert (F4 : ffinite f (f_int f 4) /\ Vf f (f_int f 4) = 4). { apply (of_int_V P E). destruct Hf as [-> | ->]; reflexivity. }
  destruct F4 as [F4 V4].
  pose proof (add_exact _ _ Hx Hy H1) as E1. pose proof (add_exact _ _ H1 Hz H2) as E2. pose proof (add_exact _ _ H2 Hw H3) as E3.
  set (s3 := SFadd P E (SFadd P E (SFadd P E x y) z) w) in *. cbn zeta.
  pose proof (quad P E (Vf f lo) HP (format_V P E lo Hlo)) as Ql. pose proof (quad P E (Vf f hi) HP (format_V P E hi Hhi)) as Qh.
  assert (4 * Vf f lo <= Vf f s3 <= 4 * Vf f hi) as [S1 S2].
  { rewrite <- Ql, <- Qh, E3, E2, E1. split; repeat (apply (rnm P E); apply Rplus_le_compat; try tauto); apply (rnm P E); lra. }
  destruct (div_finite P E s3 (f_int f 4) H3 F4 ltac:(rewrite V4; lra)) as [Nd Ed]. rewrite V4 in Ed.
  pose proof (V_finite _ _ _ Hlo) as Bl. pose proof (V_finite _ _ _ Hhi) as Bh.
  assert (Vf f lo <= rn P E (Vf f s3 / 4) <= Vf f hi) as HR.
  { split; [rewrite <- (rn_id f lo Hlo)|rewrite <- (rn_id f hi Hhi)]; apply (rnm P E); lra. }
  rewrite (sat_id E) in Ed by lra. split; [apply (number_hi P E); [done|]; rewrite Ed; lra|]. rewrite Ed. lra.
Qed.
End Fmt.

(** The centroid of a tetrahedron with finite vertices lies, in every coordinate, between any bounds of the four vertices (so in their
    bounding box) if no partial sum overflows. *)
Theorem C72_tetrahedron : forall f DIM a b c e, f = binary32 \/ f = binary64 -> Forall (finite_point (f_prec f) (f_emax f) DIM) [a; b; c; e] ->
  (forall d x y z w, a !! d = Some x -> b !! d = Some y -> c !! d = Some z -> e !! d = Some w ->
    let add := SFadd (f_prec f) (f_emax f) in Forall (fun s => ieee_finite (f_prec f) (f_emax f) s = true) [add x y; add (add x y) z; add (add (add x y) z) w]) ->
  finite_point (f_prec f) (f_emax f) DIM (centroid_tetrahedron f a b c e) /\
  forall d x y z w m lo hi, a !! d = Some x -> b !! d = Some y -> c !! d = Some z -> e !! d = Some w -> centroid_tetrahedron f a b c e !! d = Some m ->
    ieee_finite (f_prec f) (f_emax f) lo = true -> ieee_finite (f_prec f) (f_emax f) hi = true ->
    Forall (fun v => SFleb lo v = true /\ SFleb v hi = true) [x; y; z; w] -> SFleb lo m = true /\ SFleb m hi = true.
Proof.
  intros f DIM a b c e Hf HF HS. pose proof (fmt_ok f Hf) as Hok. rewrite !Forall_cons in HF. destruct HF as ([L1 H1] & [L2 H2] & [L3 H3] & [L4 H4] & _).
  rewrite Forall_lookup in H1. rewrite Forall_lookup in H2. rewrite Forall_lookup in H3. rewrite Forall_lookup in H4.
  assert (forall d m, centroid_tetrahedron f a b c e !! d = Some m -> exists x y z w, a !! d = Some x /\ b !! d = Some y /\ c !! d = Some z /\ e !! d = Some w /\
    m = SFdiv (f_prec f) (f_emax f) (SFadd (f_prec f) (f_emax f) (SFadd (f_prec f) (f_emax f) (SFadd (f_prec f) (f_emax f) x y) z) w) (f_int f 4)) as Hm.
  { intros d m Hm. apply lookup_zip_with_Some in Hm as (xyz & w & -> & Hm & Hw). apply lookup_zip_with_Some in Hm as (xy & z & -> & Hm & Hz).
    apply lookup_zip_with_Some in Hm as (x & y & -> & Hx & Hy). by exists x, y, z, w. }
  assert (forall d x y z w m lo hi, a !! d = Some x -> b !! d = Some y -> c !! d = Some z -> e !! d = Some w -> centroid_tetrahedron f a b c e !! d = Some m ->
    ieee_finite (f_prec f) (f_emax f) lo = true -> ieee_finite (f_prec f) (f_emax f) hi = true ->
    Forall (fun v => Vf f lo <= Vf f v <= Vf f hi) [x; y; z; w] -> ieee_finite (f_prec f) (f_emax f) m = true /\ Vf f lo <= Vf f m <= Vf f hi) as H.
  { intros d x y z w m lo hi Hx Hy Hz Hw Em Hlo Hhi HB. apply Hm in Em as (x' & y' & z' & w' & Hx' & Hy' & Hz' & Hw' & ->). simplify_eq.
    specialize (HS d x y z w Hx Hy Hz Hw). cbn zeta in HS. rewrite !Forall_cons in HS. destruct HS as (S1 & S2 & S3 & _).
    apply (quarter_between f Hf); eauto. }
  split; [split|].
  - unfold centroid_tetrahedron. rewrite !zip_with_length. lia.
  - apply Forall_lookup. intros d m Em. destruct (Hm d m Em) as (x & y & z & w & Hx & Hy & Hz & Hw & _).
    assert (forall p q, ffinite f p -> ffinite f q -> exists lo hi, ffinite f lo /\ ffinite f hi /\ Vf f lo <= Vf f p <= Vf f hi /\ Vf f lo <= Vf f q <= Vf f hi /\
      (lo = p \/ lo = q) /\ (hi = p \/ hi = q)) as Hmm.
    { intros p q Hp Hq. destruct (Rle_or_lt (Vf f p) (Vf f q)); [exists p, q|exists q, p]; repeat split; auto; lra. }
    destruct (Hmm x y (H1 _ _ Hx) (H2 _ _ Hy)) as (l1 & h1 & Fl1 & Fh1 & B1 & B2 & _). destruct (Hmm z w (H3 _ _ Hz) (H4 _ _ Hw)) as (l2 & h2 & Fl2 & Fh2 & B3 & B4 & _).
    destruct (Hmm l1 l2 Fl1 Fl2) as (lo & t1 & Flo & _ & B5 & B6 & _). destruct (Hmm h1 h2 Fh1 Fh2) as (t2 & hi & _ & Fhi & B7 & B8 & _).
    apply (H d x y z w m lo hi); auto. rewrite !Forall_cons. repeat split; auto; lra.
  - intros d x y z w m lo hi Hx Hy Hz Hw Em Hlo Hhi HB.
    assert (Forall (fun v => Vf f lo <= Vf f v <= Vf f hi) [x; y; z; w]) as HB'.
    { assert (forall v, ffinite f v -> SFleb lo v = true /\ SFleb v hi = true -> Vf f lo <= Vf f v <= Vf f hi) as G.
      { intros v Hv [G1 G2]. apply (leb_V (f_prec f) (f_emax f)) in G1; [|by apply finite_number..]. apply (leb_V (f_prec f) (f_emax f)) in G2; [|by apply finite_number..]. done. }
      rewrite !Forall_cons in *. destruct HB as (? & ? & ? & ? & _). refine (conj (G x _ _) (conj (G y _ _) (conj (G z _ _) (conj (G w _ _) _)))); by eauto. }
    destruct (H d x y z w m lo hi Hx Hy Hz Hw Em Hlo Hhi HB') as (Fm & G1 & G2). split; (apply (leb_V (f_prec f) (f_emax f)); [by apply finite_number..|done]).
Qed.
Print Assumptions C72_tetrahedron.
(** Four equal coordinates at the largest number whose fourfold is finite, and of the smallest subnormal. *)
Example C72_example_tetrahedron : let a := [f32 16777215 102; f32 1 (-149); f32 1 0] in let b := [f32 16777215 102; f32 1 (-149); f32 (-3) 5] in
  Forall (finite_point 24 128 3) [a; b; b; a] /\
  (forall d x y z w, a !! d = Some x -> b !! d = Some y -> b !! d = Some z -> a !! d = Some w ->
    let add := SFadd 24 128 in Forall (fun s => ieee_finite 24 128 s = true) [add x y; add (add x y) z; add (add (add x y) z) w]) /\
  centroid_tetrahedron binary32 a b b a = [f32 16777215 102; f32 1 (-149); f32 (-95) (-1)].
Proof.
  split; [repeat constructor|]. split; [|vm_compute; reflexivity].
  intros [|[|[|d]]] x y z w Hx Hy Hz Hw; cbn in Hx, Hy, Hz, Hw; simplify_eq; repeat constructor.
Qed.
