(** Distances to points and boxes in IEEE arithmetic. *)
From Coq Require Import Reals Lra SpecFloat.
From Flocq Require Import Core IEEE754.BinarySingleNaN.
From Verif Require Import Base GeomOps HeapSpec BoxSpec BoxModel IeeeSpec IeeeModel IeeeProof TraversalSpec.
Local Open Scope R_scope.

Section Ieee.
Context (prec emax : Z) {Hprec : FLX.Prec_gt_0 prec} {Hmax : Prec_lt_emax prec emax}.
Notation num := (IeeeModel.num prec emax).
Notation O := (NumOps prec emax).
Notation F := (FloatOps prec emax).
Notation M := (bpow radix2 emax).
Notation raw := (raw prec emax).
Notation as_num := (as_num prec emax).
Notation finite := (ieee_finite prec emax).
Notation number := (ieee_number prec emax).
Notation sat := (sat emax).
Notation rn := (rn prec emax).
Notation ltb := (o_ltb O).
Definition val (x : num) : R := V emax (raw x).

Lemma raw_as x : number x = true -> raw (as_num x) = x.
Proof. intros H. unfold IeeeModel.as_num. destruct bool_dec; done. Qed.
Lemma raw_number (x : num) : number (raw x) = true.
Proof. apply (proj2_sig x). Qed.
Lemma raw_inj (x y : num) : raw x = raw y -> x = y.
Proof. destruct x as [x Hx], y as [y Hy]. simpl. intros ->. f_equal. apply Eqdep_dec.UIP_dec, bool_dec. Qed.
Lemma as_raw (x : num) : as_num (raw x) = x.
Proof. apply raw_inj, raw_as, raw_number. Qed.
Lemma ltb_val x y : ltb x y = true <-> val x < val y.
Proof. apply (ltb_V prec emax); apply raw_number. Qed.
Lemma ltb_false x y : ltb x y = false <-> val y <= val x.
Proof. apply (ltb_V_false prec emax); apply raw_number. Qed.
Lemma leb_val x y : o_leb O x y = true <-> val x <= val y.
Proof. apply (leb_V prec emax); apply raw_number. Qed.
Lemma num_SW : StrictWeak ltb.
Proof.
  split.
  - intros x. apply ltb_false. lra.
  - intros x y z. rewrite !ltb_val. lra.
  - intros x y z. rewrite !ltb_false. lra.
Qed.
Definition isfin (x : num) : Prop := finite (raw x) = true.

(** The operations that occur. *)
Lemma sub_val x y : isfin x -> isfin y -> raw (o_sub O x y) = SFsub prec emax (raw x) (raw y) /\ val (o_sub O x y) = sat (rn (val x - val y)).
Proof. intros Hx Hy. destruct (sub_finite prec emax _ _ Hx Hy) as [H1 H2]. unfold val. cbn [o_sub NumOps FloatOps]. rewrite raw_as by done. done. Qed.
Lemma sq_val d : raw (o_mul O d d) = SFmul prec emax (raw d) (raw d) /\ val (o_mul O d d) = sat (rn (val d * val d)).
Proof. destruct (sq_V prec emax _ (raw_number d)) as [H1 H2]. unfold val. cbn [o_mul NumOps FloatOps]. rewrite raw_as by done. done. Qed.
Lemma add_val s t : 0 <= val s -> 0 <= val t -> raw (o_add O s t) = SFadd prec emax (raw s) (raw t) /\ val (o_add O s t) = sat (rn (val s + val t)).
Proof. intros Hs Ht. destruct (add_V prec emax _ _ (raw_number s) (raw_number t) Hs Ht) as [H1 H2]. unfold val. cbn [o_add NumOps FloatOps]. rewrite raw_as by done. done. Qed.
Lemma sqrt_val s : 0 <= val s -> raw (o_sqrt O s) = SFsqrt prec emax (raw s) /\ 0 <= val (o_sqrt O s).
Proof. intros Hs. destruct (sqrt_V prec emax _ (raw_number s) Hs) as [H1 H2]. unfold val. cbn [o_sqrt NumOps FloatOps]. rewrite raw_as by done. done. Qed.
Lemma zero_val : raw (o_zero O) = S754_zero false /\ val (o_zero O) = 0.
Proof. unfold val. cbn [o_zero NumOps FloatOps]. rewrite raw_as by done. done. Qed.
Lemma sqrt_val_mono s t : 0 <= val s <= val t -> val (o_sqrt O s) <= val (o_sqrt O t).
Proof.
  intros H. unfold val. rewrite (proj1 (sqrt_val s ltac:(lra))), (proj1 (sqrt_val t ltac:(lra))). apply (sqrt_mono prec emax); [apply raw_number..|done].
Qed.
Lemma inf_val : raw (inf_num prec emax) = S754_infinity false /\ val (inf_num prec emax) = M.
Proof. unfold val, inf_num. rewrite raw_as by done. done. Qed.
Lemma val_bound x : - M <= val x <= M.
Proof. exact (V_number prec emax _ (raw_number x)). Qed.
Lemma fin_val x : isfin x <-> - M < val x < M.
Proof.
  split; [apply (V_finite prec emax)|]. intros H. destruct (number_cases prec emax _ (raw_number x)) as [?|[E|E]]; [done|..]; unfold val in H; rewrite E in H; simpl in H; lra.
Qed.
Lemma max_val x : isfin x -> val (min_num prec emax) <= val x <= val (max_num prec emax).
Proof.
  intros Hx. destruct (max_finite_ok prec emax) as (H1 & H2 & H3). unfold val, min_num, max_num. rewrite !raw_as by (by apply finite_number). by apply H3.
Qed.
Lemma max_fin : isfin (max_num prec emax) /\ isfin (min_num prec emax).
Proof.
  destruct (max_finite_ok prec emax) as (H1 & H2 & H3). unfold isfin, min_num, max_num. rewrite !raw_as by (by apply finite_number). done.
Qed.

(** Sums of squares. *)
Notation step := (fun s d => o_add O s (o_mul O d d)).
Lemma term_nonneg d : 0 <= val (o_mul O d d).
Proof. rewrite (proj2 (sq_val d)). apply (sat_rn_nonneg prec emax). nra. Qed.
Lemma step_nonneg s d : 0 <= val s -> 0 <= val (o_add O s (o_mul O d d)).
Proof. intros Hs. pose proof (term_nonneg d). rewrite (proj2 (add_val _ _ Hs H)). apply (sat_rn_nonneg prec emax). lra. Qed.
Lemma sum_nonneg ds : forall s, 0 <= val s -> 0 <= val (foldl step s ds).
Proof. induction ds as [|d ds IH]; intros s Hs; cbn [foldl]; [done|]. by apply IH, step_nonneg. Qed.
Lemma sum_raw ds : forall s, 0 <= val s -> raw (foldl step s ds) = foldl (fun s d => SFadd prec emax s (SFmul prec emax d d)) (raw s) (map raw ds).
Proof.
  induction ds as [|d ds IH]; intros s Hs; [done|]. cbn [foldl map]. rewrite IH by (by apply step_nonneg).
  rewrite (proj1 (add_val s (o_mul O d d) Hs (term_nonneg d))), (proj1 (sq_val d)). done.
Qed.
Lemma sum_mono ds es : Forall2 (fun d e => Rabs (val d) <= Rabs (val e)) ds es -> forall s t, 0 <= val s <= val t -> val (foldl step s ds) <= val (foldl step t es).
Proof.
  induction 1 as [|d e ds es H HF IH]; intros s t [H1 H2]; cbn [foldl]; [done|]. apply IH. split; [by apply step_nonneg|].
  rewrite (proj2 (add_val s _ H1 (term_nonneg d))), (proj2 (add_val t _ ltac:(lra) (term_nonneg e))). apply (sat_mono emax), (rn_mono prec emax).
  enough (val (o_mul O d d) <= val (o_mul O e e)) by lra. rewrite (proj2 (sq_val d)), (proj2 (sq_val e)). apply (sat_mono emax), (rn_mono prec emax).
  apply Rsqr_le_abs_1 in H. exact H.
Qed.
Lemma sum_zero ds : Forall (fun d => val d = 0) ds -> forall s, val s = 0 -> val (foldl step s ds) = 0.
Proof.
  induction 1 as [|d ds H HF IH]; intros s Hs; cbn [foldl]; [done|]. apply IH. rewrite (proj2 (add_val s _ ltac:(lra) (term_nonneg d))), (proj2 (sq_val d)), H, Hs.
  rewrite Rmult_0_l, (rn_0 prec emax), (sat_0 prec emax), Rplus_0_l, (rn_0 prec emax). apply (sat_0 prec emax).
Qed.
Notation difs a b := (zip_with (fun x y => o_sub O y x) a b).

(** No NaN: the distance of two finite points is the one computed by the operations of the format. *)
Lemma difs_raw a b : Forall isfin a -> Forall isfin b -> map raw (difs a b) = zip_with (fun x y => SFsub prec emax y x) (map raw a) (map raw b).
Proof.
  intros Ha. revert b. induction Ha as [|x a Hx Ha IH]; intros b Hb; [done|]. destruct Hb as [|y b Hy Hb]; [done|]. cbn [zip_with map]. f_equal; [by apply sub_val|by apply IH].
Qed.
Lemma distance_nonneg a b : 0 <= val (distance_pp O a b).
Proof. unfold distance_pp, sum_squares. apply sqrt_val, sum_nonneg. rewrite (proj2 zero_val). lra. Qed.
Lemma distance_raw a b : Forall isfin a -> Forall isfin b -> raw (distance_pp O a b) = distance_pp F (map raw a) (map raw b).
Proof.
  intros Ha Hb. unfold distance_pp, sum_squares. rewrite (proj1 (sqrt_val _ (sum_nonneg _ _ ltac:(rewrite (proj2 zero_val); lra)))).
  rewrite sum_raw by (rewrite (proj2 zero_val); lra). rewrite (proj1 zero_val), difs_raw by done. done.
Qed.

Lemma sum_sign ds : forall s, 0 <= val s -> sign_SF (raw s) = false -> sign_SF (raw (foldl step s ds)) = false.
Proof.
  induction ds as [|d ds IH]; intros s Hs Ss; cbn [foldl]; [done|]. apply IH; [by apply step_nonneg|]. rewrite (proj1 (add_val s _ Hs (term_nonneg d))), (proj1 (sq_val d)).
  apply (add_sign prec emax); [apply raw_number|apply (sq_V prec emax), raw_number|done|]. apply (sq_sign prec emax), raw_number.
Qed.
Lemma distance_sign a b : sign_SF (raw (distance_pp O a b)) = false.
Proof.
  unfold distance_pp, sum_squares. destruct zero_val as [Z1 Z2]. rewrite (proj1 (sqrt_val _ (sum_nonneg (difs a b) (o_zero O) ltac:(rewrite Z2; lra)))). apply (sqrt_sign prec emax); [apply raw_number|].
  apply sum_sign; [rewrite Z2; lra|by rewrite Z1].
Qed.

(** Symmetric, and zero on the diagonal. *)
Lemma sub_swap x y : isfin x -> isfin y -> o_mul O (o_sub O x y) (o_sub O x y) = o_mul O (o_sub O y x) (o_sub O y x).
Proof.
  intros Hx Hy. apply raw_inj. rewrite !(proj1 (sq_val _)). apply sq_eq; [exact Hprec|exact Hmax|apply raw_number..|].
  change (val (o_sub O x y) = - val (o_sub O y x)). rewrite (proj2 (sub_val x y Hx Hy)), (proj2 (sub_val y x Hy Hx)).
  rewrite <- (sat_opp prec emax), <- (rn_opp prec emax). do 2 f_equal. lra.
Qed.
Lemma distance_sym a b : Forall isfin a -> Forall isfin b -> distance_pp O a b = distance_pp O b a.
Proof.
  intros Ha Hb. unfold distance_pp, sum_squares. f_equal. generalize (o_zero O). revert b Hb. induction Ha as [|x a Hx Ha IH]; intros b Hb s; destruct Hb as [|y b Hy Hb]; try done.
  cbn [zip_with foldl]. rewrite IH by done. do 2 f_equal. by apply sub_swap.
Qed.
Lemma distance_self a : Forall isfin a -> val (distance_pp O a a) = 0.
Proof.
  intros Ha. unfold distance_pp, sum_squares. assert (val (foldl step (o_zero O) (difs a a)) = 0) as E.
  { apply sum_zero; [|apply zero_val]. induction Ha as [|x a Hx Ha IH]; cbn [zip_with]; constructor; [|done]. rewrite (proj2 (sub_val x x Hx Hx)), Rminus_eq_0, (rn_0 prec emax). apply (sat_0 prec emax). }
  generalize dependent (foldl step (o_zero O) (difs a a)). intros s E. assert (isfin s) as Fs by (apply fin_val; pose proof (M_pos prec emax); lra).
  unfold val. rewrite (proj1 (sqrt_val s ltac:(lra))). destruct (sqrt_finite prec emax _ Fs) as [_ H]; [fold (val s); lra|]. rewrite H. fold (val s). rewrite E, sqrt_0. apply (rn_0 prec emax).
Qed.

(** Boxes: corners may be infinite, but no lower one is +inf and no upper one -inf. *)
Definition okc (c : num * num) : Prop := val c.1 <= val (max_num prec emax) /\ val (min_num prec emax) <= val c.2.
Notation clos x c := (if ltb x c.1 then c.1 else if ltb c.2 x then c.2 else x).
Lemma clos_fin x c : isfin x -> okc c -> isfin (clos x c).
Proof.
  intros Hx [H1 H2]. destruct max_fin as [F1 F2]. rewrite fin_val in *. destruct (ltb x c.1) eqn:E1; [apply ltb_val in E1; lra|].
  destruct (ltb c.2 x) eqn:E2; [apply ltb_val in E2; lra|]. lra.
Qed.
Lemma closest_fin p : forall b, Forall isfin p -> Forall okc b -> Forall isfin (closest_box O p b).
Proof.
  induction p as [|x p IH]; intros b Hp Hb; [constructor|]. inversion Hp; subst. destruct Hb as [|c b Hc Hb]; [constructor|]. cbn. destruct c as [lo hi].
  constructor; [by apply (clos_fin x (lo, hi))|by apply IH].
Qed.
Lemma closest_raw p : forall b, map raw (closest_box O p b) = closest_box F (map raw p) (map (fun c => (raw c.1, raw c.2)) b).
Proof.
  induction p as [|x p IH]; intros [|[lo hi] b]; try done. cbn [closest_box zip_with map]. f_equal; [|apply IH]. cbn [o_ltb NumOps FloatOps fst snd].
  by destruct (SFltb (raw x) (raw lo)), (SFltb (raw hi) (raw x)).
Qed.
Lemma distance_pb_raw p b : Forall isfin p -> Forall okc b -> raw (distance_pb O p b) = distance_pb F (map raw p) (map (fun c => (raw c.1, raw c.2)) b).
Proof. intros Hp Hb. unfold distance_pb. rewrite distance_raw, closest_raw by (done || by apply closest_fin). done. Qed.
Lemma clos_closer x c v : isfin x -> okc c -> isfin v -> val c.1 <= val v <= val c.2 ->
  Rabs (val (o_sub O (clos x c) x)) <= Rabs (val (o_sub O v x)).
Proof.
  intros Hx Hc Hv [H1 H2]. pose proof (clos_fin x c Hx Hc) as Hf. rewrite (proj2 (sub_val _ x Hf Hx)), (proj2 (sub_val v x Hv Hx)).
  assert (0 <= val (clos x c) - val x <= val v - val x \/ val v - val x <= val (clos x c) - val x <= 0) as [H|H].
  { clear Hf. destruct (ltb x c.1) eqn:E1; [apply ltb_val in E1; left; lra|]. apply ltb_false in E1. destruct (ltb c.2 x) eqn:E2; [apply ltb_val in E2; right; lra|].
    rewrite Rminus_eq_0. lra. }
  - pose proof (sat_rn_nonneg prec emax (val (clos x c) - val x) ltac:(lra)). pose proof (sat_rn_nonneg prec emax (val v - val x) ltac:(lra)).
    rewrite !Rabs_pos_eq by done. apply (sat_mono emax), (rn_mono prec emax). lra.
  - pose proof (sat_rn_nonpos prec emax (val (clos x c) - val x) ltac:(lra)). pose proof (sat_rn_nonpos prec emax (val v - val x) ltac:(lra)).
    rewrite !Rabs_left1 by done. apply Ropp_le_contravar. apply (sat_mono emax), (rn_mono prec emax). lra.
Qed.
Lemma distance_mono p ds es : Forall2 (fun d e => Rabs (val d) <= Rabs (val e)) (difs p ds) (difs p es) -> val (distance_pp O p ds) <= val (distance_pp O p es).
Proof.
  intros H. unfold distance_pp, sum_squares. apply sqrt_val_mono. destruct zero_val as [_ Hz]. split; [apply sum_nonneg; lra|]. apply sum_mono; [done|lra].
Qed.
Lemma point_box_mono p b v : length p = length v -> Forall isfin p -> Forall okc b -> Forall isfin v -> InBox ltb v b -> val (distance_pb O p b) <= val (distance_pp O p v).
Proof.
  intros HL Hp Hb Hv Hin. unfold distance_pb. apply distance_mono. revert b v HL Hb Hv Hin. induction Hp as [|x p Hx Hp IH]; intros b v HL Hb Hv Hin; [constructor|].
  destruct Hv as [|y v Hy Hv]; [discriminate|]. inversion Hin as [|? c ? b' [H1 H2] HF]; subst. inversion Hb; subst. rewrite !ltb_false in H1, H2. destruct c as [lo hi]. cbn [closest_box zip_with].
  simpl in HL. constructor; [|apply IH; (done || lia)]. by apply (clos_closer x (lo, hi)).
Qed.
Lemma box_mono p b c : length p = length c -> Forall isfin p -> Forall okc b -> Forall okc c -> BoxSpec.Proper ltb c -> BoxIn ltb c b -> val (distance_pb O p b) <= val (distance_pb O p c).
Proof.
  intros HL Hp Hb Hc Hpr Hin. unfold distance_pb at 2. apply point_box_mono; try done.
  - unfold closest_box. rewrite zip_with_length. lia.
  - by apply closest_fin.
  - clear Hb. revert b c HL Hc Hpr Hin. induction Hp as [|x p Hx Hp IH]; intros b c HL Hc Hpr Hin; (destruct c as [|[lo hi] c]; [try discriminate; inversion Hin; constructor|]); [discriminate|].
    inversion Hin as [|? [lo' hi'] ? b' [H1 H2] HF]; subst. inversion Hc as [|? ? Hc1 Hc2]; subst. inversion Hpr as [|? ? H3 H4]; subst. simpl in HL. cbn [closest_box zip_with].
    constructor; [|apply IH; (done || lia)]. cbn [fst snd] in *. rewrite ltb_false in H1, H2, H3.
    destruct (ltb x lo) eqn:E1; [apply ltb_val in E1; rewrite !ltb_false; lra|]. apply ltb_false in E1.
    destruct (ltb hi x) eqn:E2; [apply ltb_val in E2|apply ltb_false in E2]; rewrite !ltb_false; lra.
Qed.

(** The distances are bounded when the coordinates are. *)
Lemma rn_bpow e : (0 <= e)%Z -> rn (bpow radix2 e) = bpow radix2 e.
Proof.
  intros He. apply round_generic; [typeclasses eauto|]. apply generic_format_bpow. unfold SpecFloat.fexp, SpecFloat.emin. unfold Prec_lt_emax, FLX.Prec_gt_0 in *. lia.
Qed.
Lemma sat_rn_le t e : (0 <= e)%Z -> 0 <= t <= bpow radix2 e -> sat (rn t) <= bpow radix2 e.
Proof.
  intros He [H1 H2]. apply (rn_mono prec emax) in H2. rewrite rn_bpow in H2 by done. unfold IeeeProof.sat. apply Rmax_lub; [|eapply Rle_trans; [apply Rmin_r|done]].
  pose proof (M_pos prec emax). pose proof (bpow_gt_0 radix2 e). lra.
Qed.
Lemma sum_le e ds : (0 <= e)%Z -> Forall (fun d => val d * val d <= bpow radix2 e) ds -> forall s j, (0 <= j)%Z -> 0 <= val s <= bpow radix2 (e + j) ->
  val (foldl step s ds) <= bpow radix2 (e + j + Z.of_nat (length ds)).
Proof.
  intros He. induction 1 as [|d ds Hd HF IH]; intros s j Hj Hs; cbn [foldl length]; [replace (e + j + Z.of_nat 0)%Z with (e + j)%Z by lia; lra|].
  replace (e + j + Z.of_nat (S (length ds)))%Z with (e + (j + 1) + Z.of_nat (length ds))%Z by lia. apply IH; [lia|]. split; [apply step_nonneg; lra|].
  rewrite (proj2 (add_val s _ ltac:(lra) (term_nonneg d))). pose proof (term_nonneg d). apply sat_rn_le; [lia|]. split; [lra|].
  assert (val (o_mul O d d) <= bpow radix2 e) as H1 by (rewrite (proj2 (sq_val d)); apply sat_rn_le; [done|]; split; [nra|done]).
  assert (bpow radix2 e <= bpow radix2 (e + j)) by (apply bpow_le; lia). replace (e + (j + 1))%Z with (e + j + 1)%Z by lia. rewrite (bpow_plus radix2 (e + j) 1). change (bpow radix2 1) with 2. lra.
Qed.
Lemma distance_fin b p q : (0 <= b)%Z -> length p = length q -> (2 * b + 2 + Z.of_nat (length p) < emax)%Z ->
  Forall (fun x => Rabs (val x) <= bpow radix2 b) p -> Forall (fun x => Rabs (val x) <= bpow radix2 b) q -> val (distance_pp O p q) < M.
Proof.
  intros Hb HL Hm Hp Hq. assert (forall x, Rabs (val x) <= bpow radix2 b -> isfin x) as Hfin.
  { intros x Hx. apply fin_val. assert (bpow radix2 b < M) by (apply bpow_lt; lia). apply Rabs_le_inv in Hx. lra. }
  unfold distance_pp, sum_squares. assert (length (difs p q) = length p) as HLd by (rewrite zip_with_length; lia).
  assert (val (foldl step (o_zero O) (difs p q)) < M) as H.
  { eapply Rle_lt_trans; [apply (sum_le (2 * b + 2) (difs p q)) with (j := 0%Z)|]; [lia| |lia| |].
    - clear HLd Hm. revert q HL Hq. induction Hp as [|x p Hx Hp IH]; intros q HL Hq; [constructor|]. destruct Hq as [|y q Hy Hq]; [discriminate|]. cbn [zip_with]. simpl in HL. constructor; [|apply IH; [lia|done]].
      rewrite (proj2 (sub_val y x (Hfin y Hy) (Hfin x Hx))). set (t := val y - val x). assert (Rabs t <= bpow radix2 (b + 1)) as Ht.
      { unfold t. rewrite bpow_plus. change (bpow radix2 1) with 2. apply Rabs_le_inv in Hx, Hy. apply Rabs_le. lra. }
      assert (Rabs (sat (rn t)) <= bpow radix2 (b + 1)) as Hs.
      { destruct (Rle_or_lt 0 t) as [H0|H0].
        - rewrite Rabs_pos_eq in Ht by done. rewrite Rabs_pos_eq by (by apply (sat_rn_nonneg prec emax)). apply sat_rn_le; [lia|lra].
        - rewrite Rabs_left in Ht by done. rewrite Rabs_left1 by (apply (sat_rn_nonpos prec emax); lra). rewrite <- (sat_opp prec emax), <- (rn_opp prec emax). apply sat_rn_le; [lia|lra]. }
      replace (2 * b + 2)%Z with ((b + 1) + (b + 1))%Z by lia. rewrite bpow_plus. apply Rabs_le_inv in Hs. nra.
    - rewrite (proj2 zero_val). split; [lra|]. apply bpow_ge_0.
    - rewrite HLd. apply bpow_lt. lia. }
  assert (0 <= val (foldl step (o_zero O) (difs p q))) as H0 by (apply sum_nonneg; rewrite (proj2 zero_val); lra).
  generalize dependent (foldl step (o_zero O) (difs p q)). intros s Hs H0. assert (isfin s) as Fs by (apply fin_val; pose proof (M_pos prec emax); lra).
  unfold val. rewrite (proj1 (sqrt_val s H0)). destruct (sqrt_finite prec emax _ Fs H0) as [H1 _]. by apply (V_finite prec emax).
Qed.

(** Boxes of a tree. *)
Notation ibox DIM := (ibox prec emax DIM).
Lemma box_okc DIM (b : ibox DIM) : length (proj1_sig b) = DIM /\ Forall okc (proj1_sig b).
Proof. destruct b as [b [H1 H2]]. simpl. split; [done|]. eapply Forall_impl; [exact H2|]. intros c [H3 H4]. rewrite ltb_false in H3, H4. done. Qed.
End Ieee.
