(** C98: the grid of the DenseBox implementation in floating point. *)
From Coq Require Import Reals Lra SpecFloat Sorting.Sorted.
From Flocq Require Import Core Relative Plus_error IEEE754.BinarySingleNaN.
From Verif Require Import IeeeSpec IeeeProof GridFloatModel TraversalSpec PropertiesTraversal TreeConstructionProof PropertiesDenseBox PropertiesGrid.
From Coq Require Import Lra.

(** ** How wide a cell can be *)
Section Width.
Local Open Scope R_scope.

Lemma f_floor_V x i : f_floor x = Some i -> IZR i <= SF2R radix2 x < IZR i + 1.
Proof.
  destruct x as [s|s| |s m e]; try done; cbn [f_floor SF2R]; intros [= <-]; [simpl; lra|]. unfold F2R. cbn [Fnum Fexp]. set (v := cond_Zopp s (Z.pos m)).
  destruct (Z.ltb_spec e 0) as [He|He].
  - assert (bpow radix2 e = / IZR (2 ^ (- e))) as ->.
    { replace e with (- (- e))%Z at 1 by lia. rewrite bpow_opp. f_equal. rewrite <- (IZR_Zpower radix2) by lia. done. }
    assert (0 < 2 ^ (- e))%Z as Hp by (apply Z.pow_pos_nonneg; lia). assert (0 < IZR (2 ^ (- e))) as HpR by (by apply (IZR_lt 0)).
    pose proof (Z.div_mod v (2 ^ (- e)) ltac:(lia)) as Hd. pose proof (Z.mod_pos_bound v (2 ^ (- e)) Hp) as Hm.
    set (d := (v / 2 ^ (- e))%Z) in *. set (r := (v mod 2 ^ (- e))%Z) in *. rewrite Hd, plus_IZR, mult_IZR.
    replace ((IZR (2 ^ (- e)) * IZR d + IZR r) * / IZR (2 ^ (- e))) with (IZR d + IZR r / IZR (2 ^ (- e))) by (field; lra).
    assert (0 <= IZR r / IZR (2 ^ (- e)) < 1); [|lra]. destruct Hm as [H1 H2]. apply IZR_le in H1. apply IZR_lt in H2. split.
    + apply Rmult_le_pos; [done|]. by apply Rlt_le, Rinv_0_lt_compat.
    + apply (Rmult_lt_reg_r (IZR (2 ^ (- e)))); [done|]. unfold Rdiv. rewrite Rmult_assoc, Rinv_l by lra. lra.
  - rewrite <- (IZR_Zpower radix2) by lia. change (radix2 ^ e)%Z with (2 ^ e)%Z. rewrite mult_IZR. lra.
Qed.
Lemma frac_bound u X t q h e eta e1 i : 0 <= u <= / 1000 -> 0 < h -> 0 <= i -> Rabs eta <= u / 1000 -> Rabs e <= u -> Rabs e1 <= u -> 0 <= X ->
  t = X * (1 + e1) -> q = t / h * (1 + e) + eta -> i <= q < i + 1 ->
  h * (i - u / 1000) <= X * ((1 + u) * (1 + u)) /\ X * ((1 - u) * (1 - u)) <= h * (i + 1 + u / 1000).
Proof.
  intros Hu Hh Hi Heta He He1 HX -> Hq Hiq. apply Rabs_le_inv in Heta, He, He1.
  assert (h * (q - eta) = X * ((1 + e1) * (1 + e))) as E by (rewrite Hq; field; lra).
  assert ((1 - u) * (1 - u) <= (1 + e1) * (1 + e) <= (1 + u) * (1 + u)) as [A1 A2] by nra.
  split.
  - apply Rle_trans with (h * (q - eta)); [apply Rmult_le_compat_l; lra|]. rewrite E. by apply Rmult_le_compat_l.
  - apply Rle_trans with (h * (q - eta)); [|apply Rmult_le_compat_l; lra]. rewrite E. by apply Rmult_le_compat_l.
Qed.
Lemma width_bound u X Y h i : 0 < u <= / 1000 -> 0 < h -> 0 <= i ->
  h * (i - u / 1000) <= Y * ((1 + u) * (1 + u)) -> X * ((1 - u) * (1 - u)) <= h * (i + 1 + u / 1000) -> 0 <= X -> 0 <= Y ->
  X - Y <= h * (1 + 5 * u * (i + 1)).
Proof.
  intros Hu Hh Hi HY HX X0 Y0.
  assert (X <= h * (i + 1 + u / 1000) * (1 + 2.1 * u)) as HX'.
  { apply Rle_trans with (X * ((1 - u) * (1 - u)) * (1 + 2.1 * u)); [|apply Rmult_le_compat_r; lra].
    assert (1 <= (1 - u) * (1 - u) * (1 + 2.1 * u)) by nra. rewrite Rmult_assoc. rewrite <- (Rmult_1_r X) at 1. apply Rmult_le_compat_l; lra. }
  assert (h * (i - u / 1000) * (1 - 2 * u) <= Y) as HY'.
  { apply Rle_trans with (Y * ((1 + u) * (1 + u)) * (1 - 2 * u)); [apply Rmult_le_compat_r; lra|].
    assert ((1 + u) * (1 + u) * (1 - 2 * u) <= 1) by nra. rewrite Rmult_assoc. rewrite <- (Rmult_1_r Y) at 2. apply Rmult_le_compat_l; lra. }
  assert (h * ((i + 1 + u / 1000) * (1 + 2.1 * u) - (i - u / 1000) * (1 - 2 * u)) <= h * (1 + 5 * u * (i + 1))); [|nra].
  apply Rmult_le_compat_l; [lra|]. nra.
Qed.
End Width.

Section Format.
Local Open Scope R_scope.
Context (prec emax : Z) {Hprec : FLX.Prec_gt_0 prec} {Hmax : Prec_lt_emax prec emax}.
Hypothesis big : (10 <= prec)%Z.
Hypothesis wide : (2 * prec + 10 <= emax)%Z.
Notation rn := (rn prec emax).
Lemma u_small : 0 < bpow radix2 (- prec) <= / 1000.
Proof.
  split; [apply bpow_gt_0|]. apply Rle_trans with (bpow radix2 (-10)); [apply bpow_le; lia|]. simpl. lra.
Qed.
Lemma quotient_bound x m h i : ieee_finite prec emax x = true -> ieee_finite prec emax m = true -> ieee_finite prec emax h = true ->
  0 < SF2R radix2 h -> SF2R radix2 m <= SF2R radix2 x -> f_floor (SFdiv prec emax (SFsub prec emax x m) h) = Some i ->
  let u := bpow radix2 (- prec) in let X := SF2R radix2 x - SF2R radix2 m in
  0 <= IZR i /\ SF2R radix2 h * (IZR i - u / 1000) <= X * ((1 + u) * (1 + u)) /\ X * ((1 - u) * (1 - u)) <= SF2R radix2 h * (IZR i + 1 + u / 1000).
Proof.
  intros Fx Fm Fh Hh Hle Hi u X. pose proof u_small as Hu. fold u in Hu.
  assert (forall z, ieee_finite prec emax z = true -> V emax z = SF2R radix2 z) as VF by (intros z Hz; unfold ieee_finite in Hz; apply andb_true_iff in Hz as [_ Hz]; by destruct z).
  assert (forall z, ieee_finite prec emax z = true -> generic_format radix2 (SpecFloat.fexp prec emax) (SF2R radix2 z)) as GF.
  { intros z Hz. apply (finite_B prec emax) in Hz as (b & <- & Hb). destruct b; try done; [apply generic_format_0|]. 
    pose proof (generic_format_B2R prec emax (B754_finite s m0 e e0)) as G. exact G. }
  destruct (sub_finite prec emax x m Fx Fm) as [Ns Vs]. set (t := SFsub prec emax x m) in *.
  assert (ieee_finite prec emax t = true) as Ft.
  { destruct (number_cases prec emax t Ns) as [?|[E|E]]; [done|..]; rewrite E in Hi; unfold ieee_finite in Fh; destruct h; try done. }
  destruct (div_finite prec emax t h Ft Fh ltac:(rewrite VF by done; lra)) as [Nq Vq]. set (q := SFdiv prec emax t h) in *.
  assert (ieee_finite prec emax q = true) as Fq by (destruct (number_cases prec emax q Nq) as [?|[E|E]]; [done|rewrite E in Hi; done..]).
  assert (forall z r, ieee_finite prec emax z = true -> V emax z = sat emax r -> SF2R radix2 z = r) as NS.
  { intros z r Hz E. pose proof (V_finite prec emax z Hz) as B. rewrite E in B. rewrite <- (VF z Hz), E. unfold sat in *. revert B. unfold Rmax, Rmin. repeat destruct Rle_dec; lra. }
  apply (NS _ _ Ft) in Vs. apply (NS _ _ Fq) in Vq. rewrite !VF in Vs, Vq by done.
  pose proof (f_floor_V _ _ Hi) as Hq.
  assert (0 <= SF2R radix2 t) as Ht0 by (rewrite Vs, <- (rn_0 prec emax); apply (rn_mono prec emax); lra).
  assert (0 <= SF2R radix2 q) as Hq0.
  { rewrite Vq, <- (rn_0 prec emax). apply (rn_mono prec emax). apply Rmult_le_pos; [done|]. by apply Rlt_le, Rinv_0_lt_compat. }
  assert (0 <= IZR i) as Hi0 by (apply IZR_le; assert (-1 < i)%Z; [apply lt_IZR; lra|lia]). split; [done|].
  destruct (FLT_plus_error_N_ex radix2 (3 - emax - prec) prec (fun x => negb (Z.even x)) (SF2R radix2 x) (- SF2R radix2 m)) as (e1 & He1 & E1).
  { apply (GF x Fx). } { apply generic_format_opp, (GF m Fm). }
  destruct (error_N_FLT radix2 (3 - emax - prec) prec Hprec (fun x => negb (Z.even x)) (SF2R radix2 t / SF2R radix2 h)) as (e & eta & He & Heta & _ & E2).
  assert (/ 2 * bpow radix2 (- prec + 1) = u) as Eu by (rewrite bpow_plus; unfold u; simpl; lra).
  eapply frac_bound with (e := e) (eta := eta) (e1 := e1) (t := SF2R radix2 t) (q := SF2R radix2 q); [lra|done|done| | | |unfold X; lra| | |done].
  - eapply Rle_trans; [exact Heta|]. apply Rle_trans with (bpow radix2 (- prec - 10)).
    + apply Rle_trans with (bpow radix2 (3 - emax - prec)); [pose proof (bpow_gt_0 radix2 (3 - emax - prec)); lra|]. apply bpow_le. lia.
    + unfold Zminus. rewrite bpow_plus. fold u. simpl bpow. unfold Rdiv. apply Rmult_le_compat_l; [lra|]. simpl. lra.
  - rewrite <- Eu. exact He.
  - eapply Rle_trans; [exact He1|]. unfold u_ro. rewrite Eu. apply Rmult_le_reg_r with (1 + u); [lra|]. unfold Rdiv. rewrite Rmult_assoc, Rinv_l by lra. nra.
  - rewrite Vs. exact E1.
  - rewrite Vq. exact E2.
Qed.
End Format.

(** Two points with the same index on an axis are at most a cell and a little apart: five units in the last place of 1 (half
    ulps) for every cell between them and the lower corner.  For float that is 0.03 percent at index 1000 and the length of a
    cell at index 3 million. *)
Theorem C98_width : forall f, f = binary32 \/ f = binary64 -> forall a x y i,
  Forall (fun z => ieee_finite (f_prec f) (f_emax f) z = true) [fa_min a; fa_h a; x; y] ->
  (0 < SF2R radix2 (fa_h a))%R -> (SF2R radix2 (fa_min a) <= SF2R radix2 x)%R -> (SF2R radix2 (fa_min a) <= SF2R radix2 y)%R ->
  f_coord_index f a x = Some i -> f_coord_index f a y = Some i ->
  (Rabs (SF2R radix2 x - SF2R radix2 y) <= SF2R radix2 (fa_h a) * (1 + 5 * bpow radix2 (- f_prec f) * (IZR i + 1)))%R.
Proof.
  assert (forall a b : option Z, forall (k : Z -> option Z) i, a ≫= k = Some i -> exists j, a = Some j /\ k j = Some i) as HB by (intros [j|] b k i H; [by exists j|done]).
  assert (forall j i, to_int j = Some i -> j = i) as HI by (unfold to_int; intros j i; destruct (_ && _); congruence).
  intros f Hf a x y i HF Hh Hx Hy Ex Ey. apply Forall_cons in HF as [F1 HF]; apply Forall_cons in HF as [F2 HF]; apply Forall_cons in HF as [F3 HF]; apply Forall_cons in HF as [F4 _].
  unfold f_coord_index in Ex, Ey. destruct (HB _ None _ _ Ex) as (j & Ej & Ei). destruct (HB _ None _ _ Ey) as (j' & Ej' & Ei').
  apply HI in Ei, Ei'. subst j j'.
  assert (let u := bpow radix2 (- f_prec f) in let X := (SF2R radix2 x - SF2R radix2 (fa_min a))%R in let Y := (SF2R radix2 y - SF2R radix2 (fa_min a))%R in let h := SF2R radix2 (fa_h a) in
    (0 < u <= / 1000)%R /\ (0 <= IZR i)%R /\ (h * (IZR i - u / 1000) <= X * ((1 + u) * (1 + u)))%R /\ (X * ((1 - u) * (1 - u)) <= h * (IZR i + 1 + u / 1000))%R /\
    (h * (IZR i - u / 1000) <= Y * ((1 + u) * (1 + u)))%R /\ (Y * ((1 - u) * (1 - u)) <= h * (IZR i + 1 + u / 1000))%R) as (Hu & Hi0 & A1 & A2 & B1 & B2).
  { destruct Hf as [-> | ->].
    - assert (FLX.Prec_gt_0 24) by done. assert (Prec_lt_emax 24 128) by done.
      destruct (quotient_bound 24 128 ltac:(lia) ltac:(lia) x (fa_min a) (fa_h a) i) as (? & ? & ?); try done.
      destruct (quotient_bound 24 128 ltac:(lia) ltac:(lia) y (fa_min a) (fa_h a) i) as (? & ? & ?); try done.
      cbv zeta. split; [apply (u_small 24); lia|]. repeat split; done.
    - assert (FLX.Prec_gt_0 53) by done. assert (Prec_lt_emax 53 1024) by done.
      destruct (quotient_bound 53 1024 ltac:(lia) ltac:(lia) x (fa_min a) (fa_h a) i) as (? & ? & ?); try done.
      destruct (quotient_bound 53 1024 ltac:(lia) ltac:(lia) y (fa_min a) (fa_h a) i) as (? & ? & ?); try done.
      cbv zeta. split; [apply (u_small 53); lia|]. repeat split; done. }
  apply Rabs_le. split.
  - assert (SF2R radix2 y - SF2R radix2 (fa_min a) - (SF2R radix2 x - SF2R radix2 (fa_min a)) <= SF2R radix2 (fa_h a) * (1 + 5 * bpow radix2 (- f_prec f) * (IZR i + 1)))%R; [|lra].
    apply width_bound; try done; lra.
  - assert (SF2R radix2 x - SF2R radix2 (fa_min a) - (SF2R radix2 y - SF2R radix2 (fa_min a)) <= SF2R radix2 (fa_h a) * (1 + 5 * bpow radix2 (- f_prec f) * (IZR i + 1)))%R; [|lra].
    apply width_bound; try done; lra.
Qed.
Print Assumptions C98_width.

(** ** Points that share a cell and are farther apart than eps, points that are near and whose cell is missed *)
Local Ltac sfr := simpl; unfold F2R; simpl; repeat match goal with |- context [IZR (Z.pow_pos ?a ?b)] => let z := eval vm_compute in (Z.pow_pos a b) in change (Z.pow_pos a b) with z end;
  repeat match goal with |- context [IZR (- ?p)%Z] => let z := eval vm_compute in (- p)%Z in change (- p)%Z with z end.
(** three points in the plane, eps = 3.41309642...: the last two share a cell *)
Definition far_eps : spec_float := f32 3578891 (-20).
Definition far_pts : list (list spec_float) := [[f32 (-59) (-2); f32 (-59) (-2)]; [f32 (-9041519) (-25); f32 (-9041519) (-25)]; [f32 8992443 (-22); f32 8992443 (-22)]].
Definition far_grid : list faxis := f_grid_of binary32 2 far_eps far_pts.
(** three points on a line, eps = 2.5 *)
Definition line_eps : spec_float := f32 5 (-1).
Definition line_pts : list (list spec_float) := [[f32 (-16) 0]; [f32 16777187 (-1)]; [f32 16777193 (-1)]].
Definition line_grid : list faxis := f_grid_of binary32 1 line_eps line_pts.
(** four points in the plane on a horizontal line, eps = 11.25: the first two share a cell, the third is at distance eps of the first *)
Definition miss_eps : spec_float := f32 45 (-2).
Definition miss_pts : list (list spec_float) := [[f32 10171059 (-19); f32 0 0]; [f32 20 0; f32 0 0]; [f32 4272819 (-19); f32 0 0]; [f32 (-163) (-3); f32 0 0]].
Definition miss_grid : list faxis := f_grid_of binary32 2 miss_eps miss_pts.

(** The comment at DB:340-341, "any two points within the same cell are within eps distance of each other", is false in single
    precision: the computed distance of the two points is larger than eps, and so is their exact distance. *)
Theorem C98_same_cell_refuted : exists eps pts i j c,
  let g := f_grid_of binary32 2 eps pts in
  Forall (fun p => length p = 2 /\ Forall (fun z => ieee_finite 24 128 z = true) p) pts /\ i < length pts /\ j < length pts /\
  f_buildGrid binary32 g = Some true /\
  f_cellIndex binary32 g (f_point_at pts i) = Some c /\ f_cellIndex binary32 g (f_point_at pts j) = Some c /\
  f_near binary32 eps pts i j = false /\
  (SF2R radix2 eps * SF2R radix2 eps < foldr Rplus 0%R (zip_with (fun x y => (SF2R radix2 x - SF2R radix2 y) * (SF2R radix2 x - SF2R radix2 y)) (f_point_at pts i) (f_point_at pts j)))%R.
Proof.
  exists far_eps, far_pts, 1, 2, 48%Z. cbv zeta. split; [by repeat constructor|]. split; [vm_compute; lia|]. split; [vm_compute; lia|].
  split; [vm_compute; reflexivity|]. split; [vm_compute; reflexivity|]. split; [vm_compute; reflexivity|]. split; [vm_compute; reflexivity|].
  sfr. lra.
Qed.
(** The check for loss of precision (CG:128-135) does not detect it either when the points are a fifth farther apart than eps. *)
Theorem C98_precision_check_refuted : exists eps pts i j c,
  let g := f_grid_of binary32 1 eps pts in
  Forall (fun p => length p = 1 /\ Forall (fun z => ieee_finite 24 128 z = true) p) pts /\ i < length pts /\ j < length pts /\
  f_buildGrid binary32 g = Some true /\
  f_cellIndex binary32 g (f_point_at pts i) = Some c /\ f_cellIndex binary32 g (f_point_at pts j) = Some c /\
  (1.2 * SF2R radix2 eps <= Rabs (SF2R radix2 (nth 0 (f_point_at pts i) S754_nan) - SF2R radix2 (nth 0 (f_point_at pts j) S754_nan)))%R.
Proof.
  exists line_eps, line_pts, 1, 2, 3355444%Z. cbv zeta. split; [by repeat constructor|]. split; [vm_compute; lia|]. split; [vm_compute; lia|].
  split; [vm_compute; reflexivity|]. split; [vm_compute; reflexivity|]. split; [vm_compute; reflexivity|].
  sfr. rewrite Rabs_left; lra.
Qed.
(** The box of a cell (CG:65-82) does not contain all points of the cell, and a point within eps of one of them is not within eps
    of the box. *)
Theorem C98_own_box_refuted : exists eps pts i j,
  let g := f_grid_of binary32 2 eps pts in
  Forall (fun p => length p = 2 /\ Forall (fun z => ieee_finite 24 128 z = true) p) pts /\ i < length pts /\ j < length pts /\
  f_buildGrid binary32 g = Some true /\ f_near binary32 eps pts i j = true /\
  exists c b, f_cellIndex binary32 g (f_point_at pts j) = Some c /\ f_cellBox binary32 g c = Some b /\
    intersects_pb (fops binary32) (f_point_at pts j) b = false /\ intersects_sb (fops binary32) (f_point_at pts i) eps b = false.
Proof.
  exists miss_eps, miss_pts, 2, 0. cbv zeta. split; [by repeat constructor|]. split; [vm_compute; lia|]. split; [vm_compute; lia|].
  split; [vm_compute; reflexivity|]. split; [vm_compute; reflexivity|]. exists 5%Z. eexists. split; [vm_compute; reflexivity|].
  split; [vm_compute; reflexivity|]. split; vm_compute; reflexivity.
Qed.
Print Assumptions C98_same_cell_refuted.
Print Assumptions C98_precision_check_refuted.
Print Assumptions C98_own_box_refuted.

(** ** The whole DenseBox program on them *)
Definition any_vol (c : nat) : zbox := Some ((Z.of_nat c, Z.of_nat c), (0, 0)%Z, (0, 0)%Z).
Notation far_near := (f_near binary32 far_eps far_pts).
Notation miss_near := (f_near binary32 miss_eps miss_pts).

(** In both inputs every hypothesis of C24 other than the contract of the grid holds (with the bounding volume test that never
    prunes): first two points are joined that are both noise, then two core points within eps of each other are not joined. *)
Theorem C98_densebox_refuted : exists eps1 pts1 permute1 eps2 pts2 permute2,
  Forall (fun '(eps, pts, permute) =>
    let n := length pts in let g := f_grid_of binary32 2 eps pts in
    let near := f_near binary32 eps pts in let hit := f_hit binary32 g eps pts in let cell := f_cell binary32 g pts in
    exists (le : zbox -> zbox -> Prop) cellvol ptvol pv order scratch big,
    Forall (fun p => length p = 2 /\ Forall (fun z => ieee_finite 24 128 z = true) p) pts /\ f_buildGrid binary32 g = Some true /\
    (forall i c v, le (cellvol c) v -> hit i c = true -> pv i v = true) /\
    (forall i j v, le (ptvol j) v -> near i j = true -> pv i v = true) /\
    2 <= big /\ permute ≡ₚ seq 0 n /\ StronglySorted Nat.le (map cell permute) /\ order ≡ₚ seq 0 (S n) /\ length scratch = S n /\
    ~ densebox le cellvol ptvol near hit pv n 2 big false false (map cell permute) permute order scratch (ValidDBSCAN n 2 near))
    [(eps1, pts1, permute1); (eps2, pts2, permute2)] /\
  (exists i j, i < length pts1 /\ j < length pts1 /\ i <> j /\ f_cell binary32 (f_grid_of binary32 2 eps1 pts1) pts1 i = f_cell binary32 (f_grid_of binary32 2 eps1 pts1) pts1 j /\ f_near binary32 eps1 pts1 i j = false) /\
  (exists i j, Core (length pts2) 2 (f_near binary32 eps2 pts2) i /\ Core (length pts2) 2 (f_near binary32 eps2 pts2) j /\ f_near binary32 eps2 pts2 i j = true /\
     f_hit binary32 (f_grid_of binary32 2 eps2 pts2) eps2 pts2 i (f_cell binary32 (f_grid_of binary32 2 eps2 pts2) pts2 j) = false).
Proof.
  exists far_eps, far_pts, [0; 1; 2], miss_eps, miss_pts, [3; 2; 0; 1]. split.
  2: { split; [exists 1, 2|exists 2, 0].
    - split; [vm_compute; lia|]. split; [vm_compute; lia|]. split; [done|]. split; vm_compute; reflexivity.
    - split; [split; [vm_compute; lia|]; vm_compute; lia|]. split; [split; [vm_compute; lia|]; vm_compute; lia|]. split; vm_compute; reflexivity. }
  constructor; [|constructor; [|constructor]].
  - cbv zeta. exists zle, any_vol, any_vol, (fun _ _ => true), (seq 0 4), (replicate 4 0), 100.
    split; [by repeat constructor|]. split; [vm_compute; reflexivity|]. split; [done|]. split; [done|]. split; [lia|].
    split; [apply (bool_decide_unpack _); vm_compute; reflexivity|]. split; [vm_compute; repeat constructor|]. split; [done|]. split; [done|].
    intros (offs & Eo & HK). vm_compute in Eo. injection Eo as <-.
    apply (Kernel_run _ _ _ _ (concat (replicate 9 [0; 1; 2]))) in HK.
    2: { intros t (pc & Ht & Hne). revert Hne. apply (all_lookup (fun pc => ~ pc <> RDone) _ t _) in Ht; [done|]. vm_compute. repeat constructor; intros H; by apply H. }
    destruct HK as (idx & pm & E1 & E2 & HK).
    assert (idx = [48; 48; 0]) as ->.
    { apply (inj (fmap (M:=list) Some)). change (map Some idx) with (Some <$> idx) in E1. rewrite <- E1. vm_compute. reflexivity. }
    assert (pm = [1; 2; 0]) as ->.
    { apply (inj (fmap (M:=list) Some)). change (map Some pm) with (Some <$> pm) in E2. rewrite <- E2. vm_compute. reflexivity. }
    clear E1 E2. destruct (HK (seq 0 3) (replicate 3 0)) as (dco & Ed & progs1 & Ep & HK1); [done|done|]. clear HK.
    vm_compute in Ed. injection Ed as <-. vm_compute in Ep. injection Ep as <-.
    apply (Kernel_run _ _ _ _ (replicate 30 0)) in HK1.
    2: { intros t (th & Ht & Hne). revert Hne. apply (all_lookup (fun th => ~ snd th <> None) _ t _) in Ht; [done|]. vm_compute. repeat constructor; intros H; by apply H. }
    set (T := default empty_tree (build_seq zjoin None (mixed_vol [48; 48; 0] [1; 2; 0] [0; 2] 2 any_vol any_vol) 64 [1; 2]%Z [0; 1])).
    destruct (HK1 T [0; 1]) as (counts & _ & progs2 & HF & HK2).
    { assert (built zjoin None (mixed_vol [48; 48; 0] [1; 2; 0] [0; 2] 2 any_vol any_vol) 64 [1; 2]%Z [0; 1] T) as HB
        by (apply build_seq_built; [simpl; lia|]; vm_compute; reflexivity).
      apply (C01_index_over_any_number_of_values _ zle zjoin None _ 64 [1; 2]%Z);
        [apply zbox_JoinSemi|lia|reflexivity|simpl; lia| |exact HB]. apply sorted_codesb_ok. vm_compute. reflexivity. }
    { vm_compute. reflexivity. }
    clear HK1. unfold MixedProgs in HF. simpl seq in HF.
    do 3 (apply Forall2_cons_inv_l in HF; destruct HF as (? & ? & ? & HF & ->)). apply Forall2_nil_inv_l in HF. subst.
    repeat match goal with H : spatial_query _ _ _ _ _ = _ |- _ => vm_compute in H; injection H as <- end.
    apply (Kernel_run _ _ _ _ (concat (replicate 60 [0; 1; 2]))) in HK2.
    2: { intros t (th & Ht & Hne). revert Hne. apply (all_lookup (fun th => ~ snd th <> None) _ t _) in Ht; [done|]. vm_compute. repeat constructor; intros H; by apply H. }
    unfold finish in HK2. apply (Kernel_run _ _ _ _ (concat (replicate 30 [0; 1; 2]))) in HK2.
    2: { intros t (pc & Ht & Hne). revert Hne. apply (all_lookup (fun pc => ~ pc <> FDone) _ t _) in Ht; [done|]. vm_compute. repeat constructor; intros H; by apply H. }
    destruct HK2 as (out & Eout & [_ _ _ HV]).
    assert (forall i, i < 3 -> ~ Core 3 2 far_near i) as NC.
    { intros i Hi [_ H]. destruct i as [|[|[|i]]]; [vm_compute in H; lia..|lia]. }
    assert (out !! 1 = Some (-1)%Z) as E.
    { apply (HV 1 ltac:(vm_compute; lia)); [apply NC; lia|]. intros j Hj. exfalso. apply (NC j); [exact (proj1 Hj)|exact Hj]. }
    vm_compute in Eout. injection Eout as <-. vm_compute in E. discriminate.
  - cbv zeta. exists zle, any_vol, any_vol, (fun _ _ => true), (seq 0 5), (replicate 5 0), 100.
    split; [by repeat constructor|]. split; [vm_compute; reflexivity|]. split; [done|]. split; [done|]. split; [lia|].
    split; [apply (bool_decide_unpack _); vm_compute; reflexivity|]. split; [vm_compute; repeat constructor|]. split; [done|]. split; [done|].
    intros (offs & Eo & HK). vm_compute in Eo. injection Eo as <-.
    apply (Kernel_run _ _ _ _ (concat (replicate 9 [0; 1; 2]))) in HK.
    2: { intros t (pc & Ht & Hne). revert Hne. apply (all_lookup (fun pc => ~ pc <> RDone) _ t _) in Ht; [done|]. vm_compute. repeat constructor; intros H; by apply H. }
    destruct HK as (idx & pm & E1 & E2 & HK).
    assert (idx = [5; 5; 0; 3]) as ->.
    { apply (inj (fmap (M:=list) Some)). change (map Some idx) with (Some <$> idx) in E1. rewrite <- E1. vm_compute. reflexivity. }
    assert (pm = [0; 1; 3; 2]) as ->.
    { apply (inj (fmap (M:=list) Some)). change (map Some pm) with (Some <$> pm) in E2. rewrite <- E2. vm_compute. reflexivity. }
    clear E1 E2. destruct (HK (seq 0 3) (replicate 3 0)) as (dco & Ed & progs1 & Ep & HK1); [done|done|]. clear HK.
    vm_compute in Ed. injection Ed as <-. vm_compute in Ep. injection Ep as <-.
    apply (Kernel_run _ _ _ _ (replicate 30 0)) in HK1.
    2: { intros t (th & Ht & Hne). revert Hne. apply (all_lookup (fun th => ~ snd th <> None) _ t _) in Ht; [done|]. vm_compute. repeat constructor; intros H; by apply H. }
    set (T := default empty_tree (build_seq zjoin None (mixed_vol [5; 5; 0; 3] [0; 1; 3; 2] [0; 2] 2 any_vol any_vol) 64 [1; 2; 3]%Z [0; 1; 2])).
    destruct (HK1 T [0; 1; 2]) as (counts & _ & progs2 & HF & HK2).
    { assert (built zjoin None (mixed_vol [5; 5; 0; 3] [0; 1; 3; 2] [0; 2] 2 any_vol any_vol) 64 [1; 2; 3]%Z [0; 1; 2] T) as HB
        by (apply build_seq_built; [simpl; lia|]; vm_compute; reflexivity).
      apply (C01_index_over_any_number_of_values _ zle zjoin None _ 64 [1; 2; 3]%Z);
        [apply zbox_JoinSemi|lia|reflexivity|simpl; lia| |exact HB]. apply sorted_codesb_ok. vm_compute. reflexivity. }
    { vm_compute. reflexivity. }
    clear HK1. unfold MixedProgs in HF. simpl seq in HF.
    do 4 (apply Forall2_cons_inv_l in HF; destruct HF as (? & ? & ? & HF & ->)). apply Forall2_nil_inv_l in HF. subst.
    repeat match goal with H : spatial_query _ _ _ _ _ = _ |- _ => vm_compute in H; injection H as <- end.
    apply (Kernel_run _ _ _ _ (concat (replicate 60 [0; 1; 2; 3]))) in HK2.
    2: { intros t (th & Ht & Hne). revert Hne. apply (all_lookup (fun th => ~ snd th <> None) _ t _) in Ht; [done|]. vm_compute. repeat constructor; intros H; by apply H. }
    unfold finish in HK2. apply (Kernel_run _ _ _ _ (concat (replicate 30 [0; 1; 2; 3]))) in HK2.
    2: { intros t (pc & Ht & Hne). revert Hne. apply (all_lookup (fun pc => ~ pc <> FDone) _ t _) in Ht; [done|]. vm_compute. repeat constructor; intros H; by apply H. }
    destruct HK2 as (out & Eout & [_ [_ HV] _ _]).
    assert (Core 4 2 miss_near 0) as C0 by (split; [lia|]; vm_compute; lia). assert (Core 4 2 miss_near 2) as C2 by (split; [lia|]; vm_compute; lia).
    specialize (proj2 (HV 0 2 C0 C2)) as HE. assert (out !! 0 = out !! 2) as E by (apply HE, rst_step; split; [done|]; split; [done|]; vm_compute; reflexivity).
    vm_compute in Eout. injection Eout as <-. vm_compute in E. discriminate.
Qed.
Print Assumptions C98_densebox_refuted.

(** The hypotheses of C98_width hold for the second and third point on the line: their distance is 3, the length of a cell 2.5. *)
Example C98_example : exists a x y i, line_grid = [a] /\ line_pts !! 1 = Some [x] /\ line_pts !! 2 = Some [y] /\
  Forall (fun z => ieee_finite 24 128 z = true) [fa_min a; fa_h a; x; y] /\ (SF2R radix2 (fa_min a) <= SF2R radix2 x)%R /\
  f_coord_index binary32 a x = Some i /\ f_coord_index binary32 a y = Some i /\ SF2R radix2 (fa_h a) = 2.5%R /\ (SF2R radix2 y - SF2R radix2 x = 3)%R.
Proof.
  eexists _, _, _, 3355444%Z. split; [vm_compute; reflexivity|]. split; [vm_compute; reflexivity|]. split; [vm_compute; reflexivity|].
  split; [by repeat constructor|]. split; [sfr; lra|]. split; [vm_compute; reflexivity|]. split; [vm_compute; reflexivity|].
  split; sfr; lra.
Qed.
