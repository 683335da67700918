(** C77: searches on a distributed tree of points with floating-point coordinates, in the arithmetic the code uses. *)
From Coq Require Import Reals Lra SpecFloat.
From Flocq Require Import Core IEEE754.BinarySingleNaN.
From Verif Require Import Base HeapSpec TreeSpec TraversalSpec GeomOps BoxModel BoxSpec IeeeSpec IeeeModel IeeeProof IeeeBoxProof PropertiesBox PropertiesTraversal PropertiesIeee.
From Verif Require Import CrsModel CrsSpec DistTreeModel DistTreeSpec PropertiesDistTree PropertiesDistNearest DistFloatModel DistFloatProof.
Local Open Scope nat_scope.

(** The bounds [b] of a rank's tree: they contain the rank's points, and are those of a default constructed box if there are none. *)
Definition rank_bounds (prec emax : Z) (DIM : nat) (vs : list (list spec_float)) (b : ibox prec emax DIM) : Prop :=
  (vs = [] -> b = i_empty prec emax DIM) /\ forall v, v ∈ vs -> BoxIn SFltb (point_box v) (raw_box prec emax DIM b).
(** the bounds of rank r *)
Definition bound_at (prec emax : Z) (DIM : nat) (bounds : list (ibox prec emax DIM)) (r : nat) : list (spec_float * spec_float) :=
  raw_box prec emax DIM (nth r bounds (i_empty prec emax DIM)).

Section Dist.
Context (prec emax : Z) {Hprec : FLX.Prec_gt_0 prec} {Hmax : Prec_lt_emax prec emax} (DIM : nat).
Notation F := (FloatOps prec emax).
Notation O := (NumOps prec emax).
Notation rbox := (raw_box prec emax DIM).
Notation V := (IeeeProof.V emax).
Notation number := (ieee_number prec emax).
Notation finite := (ieee_finite prec emax).
Notation as_num := (as_num prec emax).
Notation raw := (IeeeModel.raw prec emax).
Notation fpt := (finite_point prec emax DIM).

Lemma bound_of (values : list (list (list spec_float))) bounds r vs : Forall2 (rank_bounds prec emax DIM) values bounds -> values !! r = Some vs ->
  exists b, bound_at prec emax DIM bounds r = rbox b /\ rank_bounds prec emax DIM vs b.
Proof.
  intros HF Hr. destruct (Forall2_lookup_l _ _ _ _ _ HF Hr) as (b & Hb & H). exists b. split; [|done]. unfold bound_at. by rewrite (nth_lookup_Some _ _ _ _ Hb).
Qed.
Lemma value_finite values r vs v : Forall (Forall fpt) values -> values !! r = Some vs -> v ∈ vs -> fpt v.
Proof.
  intros H Hr Hv. rewrite Forall_forall in H. specialize (H vs (elem_of_list_lookup_2 _ _ _ Hr)). rewrite Forall_forall in H. by apply H.
Qed.
Lemma num_ltb x y : number x = true -> number y = true -> o_ltb O (as_num x) (as_num y) = SFltb x y.
Proof. intros Hx Hy. cbn [o_ltb NumOps FloatOps]. by rewrite !raw_as. Qed.
Lemma inf_ltb x : number x = true -> o_ltb O (as_num x) (inf_num prec emax) = SFltb x (S754_infinity false).
Proof. intros Hx. cbn [o_ltb NumOps FloatOps]. unfold inf_num. by rewrite !raw_as. Qed.

Lemma empty_pb p : (2 <= prec)%Z -> (2 * prec <= emax)%Z -> 1 <= DIM -> fpt p -> distance_pb F p (rbox (i_empty prec emax DIM)) = S754_infinity false.
Proof.
  intros H1 H2 HD Hp. rewrite <- (no_nan_pb prec emax DIM) by done. destruct Hp as [HL Hp]. destruct (lift_raw prec emax p Hp) as [E1 F1]. cbn [i_empty proj1_sig].
  rewrite (empty_far prec emax DIM); [exact (proj1 (inf_val prec emax))|done..|unfold lift; by rewrite map_length|done].
Qed.

(** Distances from a sphere of radius r around c: kmax (d - r) 0. *)
Notation clamp d r := (kmax F (SFsub prec emax d r) (S754_zero false)).
Lemma kmax_number x y : number x = true -> number y = true -> number (kmax F x y) = true /\ V (kmax F x y) = Rmax (V x) (V y).
Proof.
  intros Hx Hy. unfold kmax. cbn [o_ltb FloatOps]. destruct (SFltb x y) eqn:E.
  - apply (ltb_V prec emax) in E; [|done..]. split; [done|]. rewrite Rmax_right; [done|lra].
  - apply (ltb_V_false prec emax) in E; [|done..]. split; [done|]. by rewrite Rmax_left.
Qed.
Lemma clamp_finite d r : finite d = true -> finite r = true -> number (clamp d r) = true /\ V (clamp d r) = Rmax (sat emax (rn prec emax (V d - V r))) 0.
Proof.
  intros Hd Hr. destruct (sub_finite prec emax d r Hd Hr) as [H1 H2]. destruct (kmax_number _ (S754_zero false) H1 ltac:(done)) as [H3 H4]. split; [done|]. rewrite H4, H2. done.
Qed.
Lemma clamp_inf r : finite r = true -> clamp (S754_infinity false) r = S754_infinity false.
Proof. intros Hr. unfold ieee_finite in Hr. destruct r as [s|s| |s m e]; try done; by rewrite andb_false_r in Hr. Qed.
Lemma nonneg_pb p (b : ibox prec emax DIM) : fpt p -> (0 <= V (distance_pb F p (rbox b)))%R.
Proof.
  intros Hp. rewrite <- (no_nan_pb prec emax DIM) by done. destruct Hp as [_ Hp]. destruct (lift_raw prec emax p Hp) as [E1 F1].
  unfold distance_pb. apply (distance_nonneg prec emax).
Qed.
Lemma nonneg_pp p q : fpt p -> fpt q -> (0 <= V (distance_pp F p q))%R.
Proof.
  intros Hp Hq. rewrite <- (no_nan_pp prec emax DIM) by done. apply (distance_nonneg prec emax).
Qed.
Lemma clamp_number d r : number d = true -> (0 <= V d)%R -> finite r = true -> number (clamp d r) = true.
Proof. intros Hd H0 Hr. destruct (nonneg_inf prec emax d Hd H0) as [Fd| ->]; [by apply clamp_finite|by rewrite clamp_inf]. Qed.
Lemma clamp_mono d e r : number d = true -> number e = true -> (0 <= V d <= V e)%R -> finite r = true -> SFltb (clamp e r) (clamp d r) = false.
Proof.
  intros Hd He [H0 H1] Hr. apply (ltb_V_false prec emax); [apply clamp_number; (done || lra)..|].
  destruct (nonneg_inf prec emax e He ltac:(lra)) as [Fe| ->].
  - destruct (nonneg_inf prec emax d Hd H0) as [Fd| ->].
    + rewrite (proj2 (clamp_finite d r Fd Hr)), (proj2 (clamp_finite e r Fe Hr)). apply Rle_max_compat_r, (sat_mono emax), (rn_mono prec emax). lra.
    + pose proof (V_finite prec emax e Fe). simpl in H1. lra.
  - rewrite clamp_inf by done. assert (number (clamp d r) = true) as Hn by (by apply clamp_number). pose proof (V_number prec emax _ Hn). simpl. lra.
Qed.
End Dist.

(** ** C77: the radius of the enlarged sphere *)
(** nextafter above a number x < finite_max: greater than x, and no number lies between. *)
Theorem C77_next : forall prec emax, (0 < prec)%Z -> (prec < emax)%Z -> forall x, ieee_finite prec emax x = true -> SFltb x (float_max prec emax) = true ->
  let y := nextafter prec emax x (float_max prec emax) in
  ieee_finite prec emax y = true /\ SFltb x y = true /\ forall z, ieee_number prec emax z = true -> SFltb x z = true -> SFleb y z = true.
Proof.
  intros prec emax H1 H2 x Fx Hlt. change (FLX.Prec_gt_0 prec) in H1. change (Prec_lt_emax prec emax) in H2. cbn zeta.
  pose proof (finite_number prec emax x Fx) as Nx. destruct (fmax_val prec emax) as (Ff & Vf & _). pose proof (finite_number prec emax _ Ff) as Nf.
  unfold nextafter. assert (SFeqb x (float_max prec emax) = false) as ->.
  { apply not_true_iff_false. rewrite (eqb_V prec emax) by done. apply (ltb_V prec emax) in Hlt; [lra|done..]. }
  rewrite Hlt. apply (ltb_V prec emax) in Hlt; [|done..]. destruct (next_up_any prec emax x Fx Hlt) as [FN VN]. pose proof (finite_number prec emax _ FN) as NN.
  pose proof (M_pos prec emax) as HM. pose proof (V_format prec emax x Fx) as Gx.
  assert (IeeeProof.V emax x < Ulp.succ radix2 (SpecFloat.fexp prec emax) (IeeeProof.V emax x))%R as Hs.
  { destruct (Req_dec (IeeeProof.V emax x) 0) as [E|E].
    - rewrite succ_eq_pos, E by lra. rewrite Rplus_0_l. change (SpecFloat.fexp prec emax) with (FLT_exp (SpecFloat.emin prec emax) prec). rewrite (@ulp_FLT_0 radix2 (SpecFloat.emin prec emax) prec H1). apply bpow_gt_0.
    - apply succ_gt_id. done. }
  split; [done|]. split; [apply (ltb_V prec emax); [done..|]; by rewrite VN|].
  intros z Nz Hz. apply (ltb_V prec emax) in Hz; [|done..]. apply (leb_V prec emax); [done..|].
  destruct (number_cases prec emax z Nz) as [Fz|[-> | ->]].
  - rewrite VN. apply succ_le_lt; [typeclasses eauto|done|by apply V_format|done].
  - pose proof (V_finite prec emax x Fx). simpl in Hz. lra.
  - pose proof (V_finite prec emax _ FN). simpl. lra.
Qed.
Print Assumptions C77_next.

(** A sphere of radius r is enlarged to nextafter(r + rho).  Whatever number rho >= d - r (as computed, at least 0) is, the enlarged sphere contains
    what is at distance d of its centre; in every IEEE format, overflow of r + rho included. *)
Theorem C77_sphere_reaches : forall prec emax, (0 < prec)%Z -> (prec < emax)%Z -> forall d r rho, ieee_finite prec emax d = true -> ieee_finite prec emax r = true -> ieee_number prec emax rho = true ->
  SFleb (S754_zero false) d = true -> SFleb (S754_zero false) r = true ->
  SFleb (kmax (FloatOps prec emax) (SFsub prec emax d r) (S754_zero false)) rho = true ->
  SFleb d (radius_around_sphere prec emax r rho) = true.
Proof.
  intros prec emax H1 H2 d r rho Fd Fr Nrho Hd Hr H. change (FLX.Prec_gt_0 prec) in H1. change (Prec_lt_emax prec emax) in H2.
  pose proof (finite_number prec emax d Fd) as Nd. pose proof (finite_number prec emax r Fr) as Nr.
  apply (leb_V prec emax) in Hd, Hr; [|done..]. change (IeeeProof.V emax (S754_zero false)) with 0%R in Hd, Hr.
  destruct (clamp_finite prec emax d r Fd Fr) as [Nc Vc]. apply (leb_V prec emax) in H; [|done..]. rewrite Vc in H.
  apply (radius_reaches prec emax); try done; [eapply Rle_trans; [apply Rmax_l|exact H]|eapply Rle_trans; [apply Rmax_r|exact H]].
Qed.
Print Assumptions C77_sphere_reaches.

(** ** C77: nearest queries *)
(** The box of a rank without points is infinitely far from every finite point if the format is wide enough (single and double precision are). *)
Theorem C77_empty_rank : forall prec emax DIM, (2 <= prec)%Z -> (2 * prec <= emax)%Z -> 1 <= DIM -> forall p, finite_point prec emax DIM p ->
  distance_pb (FloatOps prec emax) p (raw_box prec emax DIM (i_empty prec emax DIM)) = S754_infinity false.
Proof.
  intros prec emax DIM H1 H2 HD p Hp. assert (FLX.Prec_gt_0 prec) by (unfold FLX.Prec_gt_0; lia). assert (Prec_lt_emax prec emax) by (unfold Prec_lt_emax; lia).
  by apply empty_pb.
Qed.
Print Assumptions C77_empty_rank.

(** Nearest queries with points (coordinates, number of neighbours): as C34, with every distance and test computed as the code does. *)
Theorem C77_nearest_point : forall prec emax DIM, (2 <= prec)%Z -> (2 * prec <= emax)%Z -> 1 <= DIM ->
  forall {C} (cb : list spec_float * nat -> list spec_float -> C) (values : list (list (list spec_float))) bounds (preds : list (list (list spec_float * nat))),
  Forall (Forall (finite_point prec emax DIM)) values -> Forall (fun q => finite_point prec emax DIM q.1) (concat preds) ->
  Forall2 (rank_bounds prec emax DIM) values bounds ->
  let F := FloatOps prec emax in
  (forall q v, q ∈ concat preds -> v ∈ concat values -> SFltb (distance_pp F q.1 v) (S754_infinity false) = true) ->
  length preds = length values ->
  let ltb := o_ltb (NumOps prec emax) in
  let dist (q : list spec_float * nat) v := as_num prec emax (distance_pp F q.1 v) in
  let bd (q : list spec_float * nat) r := as_num prec emax (distance_pb F q.1 (bound_at prec emax DIM bounds r)) in
  nearest_queryDispatch ltb snd (length <$> values)
    (fun q rs => KNearest ltb (inf_num prec emax) (bd q) q.2 (seq 0 (length values)) rs)
    (fun '(q, rho) rs => rs ≡ₚ List.filter (fun r => intersects_sb F q.1 (radius_around_point (raw prec emax rho)) (bound_at prec emax DIM bounds r)) (seq 0 (length values)))
    (fun r q vs => Closest ltb (dist q) q.2 (default [] (values !! r)) vs)
    dist cb preds
    (fun s out offset => forall p, preds !! s = Some p ->
       exists answers, Forall2 (fun q a => Closest ltb (dist q) q.2 (concat values) a /\ Nearer ltb (dist q) a) p answers /\
         CrsAnswerOrdered (zip_with (fun q a => map (cb q) a) p answers) out offset).
Proof.
  intros prec emax DIM H1 H2 HD C cb values bounds preds Hv Hq HB F Hfin HL ltb dist bd.
  assert (FLX.Prec_gt_0 prec) as HP by (unfold FLX.Prec_gt_0; lia). assert (Prec_lt_emax prec emax) as HM by (unfold Prec_lt_emax; lia). rewrite Forall_forall in Hq.
  assert (forall v, v ∈ concat values -> finite_point prec emax DIM v) as Hv'.
  { intros v (vs & Hvs & Hin)%elem_of_concat. rewrite Forall_forall in Hv. specialize (Hv vs Hvs). rewrite Forall_forall in Hv. by apply Hv. }
  apply (C34_nearest ltb (inf_num prec emax) snd dist bd (fun q rho r => intersects_sb F q.1 (radius_around_point (raw prec emax rho)) (bound_at prec emax DIM bounds r)) cb values preds).
  - exact (num_SW prec emax).
  - intros q v Hqi Hvi. unfold ltb, dist. rewrite inf_ltb by (apply (num_pp prec emax DIM); auto). by apply Hfin.
  - intros q r vs v Hqi Hr Hvi. pose proof (value_finite prec emax DIM values r vs v Hv Hr Hvi) as Fv. destruct (bound_of prec emax DIM values bounds r vs HB Hr) as (b & Eb & _ & Hb).
    unfold ltb, dist, bd. rewrite Eb, num_ltb; [|apply (num_pp prec emax DIM); auto|apply (num_pb prec emax DIM); auto]. apply (point_node prec emax DIM); auto.
  - intros q r Hqi Hr. destruct (bound_of prec emax DIM values bounds r [] HB Hr) as (b & Eb & Hb & _). specialize (Hb eq_refl). subst b.
    unfold ltb, bd. rewrite Eb. rewrite inf_ltb by (apply (num_pb prec emax DIM); auto). unfold F. rewrite (empty_pb prec emax DIM) by auto. done.
  - intros q rho r vs Hqi Hr Hne Hlt. destruct (bound_of prec emax DIM values bounds r vs HB Hr) as (b & Eb & _ & Hb).
    unfold intersects_sb, radius_around_point, ltb, bd in *. rewrite Eb in *. cbn [o_leb F FloatOps]. pose proof (num_pb prec emax DIM q.1 b (Hq q Hqi)) as Nb.
    apply (leb_V prec emax); [done|apply raw_number|]. cbn [o_ltb NumOps FloatOps] in Hlt. rewrite raw_as in Hlt by done. apply (ltb_V_false prec emax) in Hlt; [done|apply raw_number|done].
  - done.
Qed.
Print Assumptions C77_nearest_point.

(** ... and with spheres ((centre, radius), number of neighbours). *)
Theorem C77_nearest_sphere : forall prec emax DIM, (2 <= prec)%Z -> (2 * prec <= emax)%Z -> 1 <= DIM ->
  forall {C} (cb : list spec_float * spec_float * nat -> list spec_float -> C) (values : list (list (list spec_float))) bounds (preds : list (list (list spec_float * spec_float * nat))),
  Forall (Forall (finite_point prec emax DIM)) values ->
  Forall (fun q => finite_point prec emax DIM q.1.1 /\ ieee_finite prec emax q.1.2 = true /\ SFleb (S754_zero false) q.1.2 = true) (concat preds) ->
  Forall2 (rank_bounds prec emax DIM) values bounds ->
  let F := FloatOps prec emax in
  (forall q v, q ∈ concat preds -> v ∈ concat values -> SFltb (distance_pp F q.1.1 v) (S754_infinity false) = true) ->
  length preds = length values ->
  let ltb := o_ltb (NumOps prec emax) in
  let dist (q : list spec_float * spec_float * nat) v := as_num prec emax (distance_ps F v q.1.1 q.1.2) in
  let bd (q : list spec_float * spec_float * nat) r := as_num prec emax (distance_sb F q.1.1 q.1.2 (bound_at prec emax DIM bounds r)) in
  nearest_queryDispatch ltb snd (length <$> values)
    (fun q rs => KNearest ltb (inf_num prec emax) (bd q) q.2 (seq 0 (length values)) rs)
    (fun '(q, rho) rs => rs ≡ₚ List.filter (fun r => intersects_sb F q.1.1 (radius_around_sphere prec emax q.1.2 (raw prec emax rho)) (bound_at prec emax DIM bounds r)) (seq 0 (length values)))
    (fun r q vs => Closest ltb (dist q) q.2 (default [] (values !! r)) vs)
    dist cb preds
    (fun s out offset => forall p, preds !! s = Some p ->
       exists answers, Forall2 (fun q a => Closest ltb (dist q) q.2 (concat values) a /\ Nearer ltb (dist q) a) p answers /\
         CrsAnswerOrdered (zip_with (fun q a => map (cb q) a) p answers) out offset).
Proof.
  intros prec emax DIM H1 H2 HD C cb values bounds preds Hv Hq HB F Hfin HL ltb dist bd.
  assert (FLX.Prec_gt_0 prec) as HP by (unfold FLX.Prec_gt_0; lia). assert (Prec_lt_emax prec emax) as HM by (unfold Prec_lt_emax; lia). rewrite Forall_forall in Hq.
  assert (forall v, v ∈ concat values -> finite_point prec emax DIM v) as Hv'.
  { intros v (vs & Hvs & Hin)%elem_of_concat. rewrite Forall_forall in Hv. specialize (Hv vs Hvs). rewrite Forall_forall in Hv. by apply Hv. }
  assert (forall q v, q ∈ concat preds -> finite_point prec emax DIM v -> dist q v = as_num prec emax (kmax F (SFsub prec emax (distance_pp F q.1.1 v) q.1.2) (S754_zero false))) as Edist.
  { intros q v Hqi Fv. unfold dist, distance_ps, F. destruct (C67_distances prec emax DIM HP HM v q.1.1 Fv (proj1 (Hq q Hqi))) as [(_ & _ & E & _) _]. cbn zeta in E. rewrite E. reflexivity. }
  assert (forall d, ieee_number prec emax d = true -> (0 <= IeeeProof.V emax d)%R -> SFltb d (S754_infinity false) = true -> ieee_finite prec emax d = true) as Hft.
  { intros d Nd H0 Hd. destruct (nonneg_inf prec emax d Nd H0) as [?| ->]; [done|]. done. }
  apply (C34_nearest ltb (inf_num prec emax) snd dist bd (fun q rho r => intersects_sb F q.1.1 (radius_around_sphere prec emax q.1.2 (raw prec emax rho)) (bound_at prec emax DIM bounds r)) cb values preds).
  - exact (num_SW prec emax).
  - intros q v Hqi Hvi. destruct (Hq q Hqi) as (Q1 & Q2 & Q3). pose proof (num_pp prec emax DIM q.1.1 v Q1 (Hv' v Hvi)) as Nd. pose proof (nonneg_pp prec emax DIM q.1.1 v Q1 (Hv' v Hvi)) as Zd.
    pose proof (Hft _ Nd Zd (Hfin q v Hqi Hvi)) as Fd. destruct (clamp_finite prec emax _ _ Fd Q2) as [Nc Vc].
    unfold ltb. rewrite Edist by auto. rewrite inf_ltb by done. apply (ltb_V prec emax); [done..|]. unfold F. rewrite Vc. change (IeeeProof.V emax (S754_infinity false)) with (bpow radix2 emax).
    pose proof (V_finite prec emax _ Fd) as Bd. pose proof (M_pos prec emax). apply Rmax_lub_lt; [|lra].
    apply (leb_V prec emax) in Q3; [|done|by apply finite_number]. change (IeeeProof.V emax (S754_zero false)) with 0%R in Q3.
    set (d := distance_pp (FloatOps prec emax) q.1.1 v) in *. assert (rn prec emax (IeeeProof.V emax d - IeeeProof.V emax q.1.2) <= IeeeProof.V emax d)%R as Hr.
    { rewrite <- (round_generic radix2 (SpecFloat.fexp prec emax) ZnearestE (IeeeProof.V emax d)) at 2 by (by apply V_format). apply (rn_mono prec emax). lra. }
    unfold sat, Rmax, Rmin. repeat destruct Rle_dec; lra.
  - intros q r vs v Hqi Hr Hvi. destruct (Hq q Hqi) as (Q1 & Q2 & Q3). pose proof (value_finite prec emax DIM values r vs v Hv Hr Hvi) as Fv. destruct (bound_of prec emax DIM values bounds r vs HB Hr) as (b & Eb & _ & Hb).
    pose proof (num_pp prec emax DIM q.1.1 v Q1 Fv) as Nd. pose proof (nonneg_pp prec emax DIM q.1.1 v Q1 Fv) as Zd. pose proof (num_pb prec emax DIM q.1.1 b Q1) as Nb. pose proof (nonneg_pb prec emax DIM q.1.1 b Q1) as Zb.
    rewrite Edist by done. unfold ltb, bd, distance_sb. rewrite Eb. cbn [o_sub o_zero F FloatOps]. rewrite num_ltb by (by apply clamp_number).
    apply (clamp_mono prec emax); try done. split; [done|]. apply (ltb_V_false prec emax); [done..|]. apply (point_node prec emax DIM); auto.
  - intros q r Hqi Hr. destruct (Hq q Hqi) as (Q1 & Q2 & Q3). destruct (bound_of prec emax DIM values bounds r [] HB Hr) as (b & Eb & Hb & _). specialize (Hb eq_refl). subst b.
    unfold ltb, bd, distance_sb. rewrite Eb. unfold F. rewrite (empty_pb prec emax DIM) by auto. cbn [o_sub o_zero FloatOps]. rewrite clamp_inf by done. by rewrite inf_ltb.
  - intros q rho r vs Hqi Hr Hne Hlt. destruct (Hq q Hqi) as (Q1 & Q2 & Q3). destruct (bound_of prec emax DIM values bounds r vs HB Hr) as (b & Eb & _ & Hb).
    destruct vs as [|v vs]; [done|]. assert (v ∈ concat values) as Hvc. { apply elem_of_concat. exists (v :: vs). split; [by eapply elem_of_list_lookup_2|left]. }
    pose proof (Hv' v Hvc) as Fv. pose proof (num_pp prec emax DIM q.1.1 v Q1 Fv) as Nd. pose proof (num_pb prec emax DIM q.1.1 b Q1) as Nb. pose proof (nonneg_pb prec emax DIM q.1.1 b Q1) as Zb.
    assert (ieee_finite prec emax (distance_pb F q.1.1 (raw_box prec emax DIM b)) = true) as Fb.
    { apply Hft; [done..|]. apply (ltb_V prec emax); [done..|]. pose proof (Hfin q v Hqi Hvc) as Hd. apply (ltb_V prec emax) in Hd; [|done..].
      eapply Rle_lt_trans; [|exact Hd]. apply (ltb_V_false prec emax); [done..|]. apply (point_node prec emax DIM); try done. apply Hb. left. }
    unfold intersects_sb, ltb, bd, distance_sb in *. rewrite Eb in *. cbn [o_leb o_sub o_zero F FloatOps] in *.
    apply C77_sphere_reaches; try done; [apply raw_number|by apply (leb_V prec emax)|].
    cbn [o_ltb NumOps FloatOps] in Hlt. pose proof (proj1 (clamp_finite prec emax _ _ Fb Q2)) as Nc. rewrite raw_as in Hlt by done.
    apply (ltb_V_false prec emax) in Hlt; [|apply raw_number|done]. apply (leb_V prec emax); [done|apply raw_number|done].
  - done.
Qed.
Print Assumptions C77_nearest_sphere.

(** ** C77: spatial queries *)
(** The points within a distance of a point, as C33. *)
Theorem C77_spatial_sphere : forall prec emax DIM, (0 < prec)%Z -> (prec < emax)%Z ->
  forall {C} (cb : list spec_float * spec_float -> list spec_float -> list C) (values : list (list (list spec_float))) bounds (preds : list (list (list spec_float * spec_float))),
  Forall (Forall (finite_point prec emax DIM)) values -> Forall (fun q => finite_point prec emax DIM q.1 /\ ieee_number prec emax q.2 = true) (concat preds) ->
  Forall2 (rank_bounds prec emax DIM) values bounds -> length preds = length values ->
  let F := FloatOps prec emax in
  let matches (q : list spec_float * spec_float) v := intersects_sp F q.1 q.2 v in
  spatial_queryDispatch (length <$> values)
    (fun q rs => rs ≡ₚ List.filter (fun r => intersects_sb F q.1 q.2 (bound_at prec emax DIM bounds r)) (seq 0 (length values)))
    (fun r q l => l ≡ₚ concat (map (cb q) (List.filter (matches q) (default [] (values !! r))))) preds
    (fun s out offset => forall p, preds !! s = Some p ->
       CrsAnswer (map (fun q => concat (map (cb q) (List.filter (matches q) (concat values)))) p) out offset).
Proof.
  intros prec emax DIM H1 H2 C cb values bounds preds Hv Hq HB HL F matches. change (FLX.Prec_gt_0 prec) in H1. change (Prec_lt_emax prec emax) in H2. rewrite Forall_forall in Hq.
  apply (C33_spatial matches (fun q r => intersects_sb F q.1 q.2 (bound_at prec emax DIM bounds r))); [done|].
  intros q r vs v Hqi Hr Hvi Hm. destruct (Hq q Hqi) as [Q1 Q2]. pose proof (value_finite prec emax DIM values r vs v Hv Hr Hvi) as Fv. destruct (bound_of prec emax DIM values bounds r vs HB Hr) as (b & -> & _ & Hb).
  unfold matches, intersects_sp, intersects_sb in *. cbn [o_leb F FloatOps] in *. revert Hm. apply (leb_trans_false prec emax); [by apply (num_pb prec emax DIM)|by apply (num_pp prec emax DIM)|done|].
  apply (point_node prec emax DIM); auto.
Qed.
Print Assumptions C77_spatial_sphere.

(** The points in a box. *)
Theorem C77_spatial_box : forall prec emax DIM, (0 < prec)%Z -> (prec < emax)%Z ->
  forall {C} (cb : list (spec_float * spec_float) -> list spec_float -> list C) (values : list (list (list spec_float))) bounds (preds : list (list (list (spec_float * spec_float)))),
  Forall (Forall (finite_point prec emax DIM)) values -> Forall (finite_box prec emax DIM) (concat preds) ->
  Forall2 (rank_bounds prec emax DIM) values bounds -> length preds = length values ->
  let F := FloatOps prec emax in
  let matches q v := intersects_pb F v q in
  spatial_queryDispatch (length <$> values)
    (fun q rs => rs ≡ₚ List.filter (fun r => intersects_bb F q (bound_at prec emax DIM bounds r)) (seq 0 (length values)))
    (fun r q l => l ≡ₚ concat (map (cb q) (List.filter (matches q) (default [] (values !! r))))) preds
    (fun s out offset => forall p, preds !! s = Some p ->
       CrsAnswer (map (fun q => concat (map (cb q) (List.filter (matches q) (concat values)))) p) out offset).
Proof.
  intros prec emax DIM H1 H2 C cb values bounds preds Hv Hq HB HL F matches. change (FLX.Prec_gt_0 prec) in H1. change (Prec_lt_emax prec emax) in H2. rewrite Forall_forall in Hq.
  apply (C33_spatial matches (fun q r => intersects_bb F q (bound_at prec emax DIM bounds r))); [done|].
  intros q r vs v Hqi Hr Hvi Hm. specialize (Hq q Hqi). pose proof (value_finite prec emax DIM values r vs v Hv Hr Hvi) as Fv. destruct (bound_of prec emax DIM values bounds r vs HB Hr) as (b & -> & _ & Hb). specialize (Hb v Hvi).
  assert (intersects_bb F q (point_box v) = true) as Hp.
  { unfold matches, intersects_pb in Hm. unfold intersects_bb, point_box. clear -Hm. revert v Hm. induction q as [|[lo hi] q IH]; intros [|x v] Hm; try done. simpl in *. apply andb_true_iff in Hm as [Ha Hm].
    apply andb_true_iff. split; [|by apply IH]. by rewrite orb_comm. }
  pose proof (leaf_box prec emax DIM q Hq) as Eq. pose proof (leaf_box prec emax DIM (point_box v) (point_finite_box prec emax DIM v Fv)) as Ev. rewrite <- Eq, <- Ev in Hp. rewrite <- Ev in Hb. rewrite <- Eq.
  unfold F in *. unfold raw_box in *. rewrite (overlap_raw prec emax) in *. revert Hp. apply (C37_overlap _ (NumOps prec emax) (num_SW prec emax)). by apply BoxIn_raw.
Qed.
Print Assumptions C77_spatial_box.

(** ** C77: the tree over the ranks *)
(** The answers assumed of the top tree above are those of a tree built over the bounds of the ranks, some of which may have no points. *)
Theorem C77_top_tree : forall prec emax DIM, (2 <= prec)%Z -> (2 * prec <= emax)%Z -> 1 <= DIM ->
  forall bounds codes perm T, Forall (fun b => b = i_empty prec emax DIM \/ finite_box prec emax DIM (raw_box prec emax DIM b)) bounds -> perm ≡ₚ seq 0 (length bounds) -> length codes = length bounds ->
  (Z.of_nat (length codes) <= 2 ^ 63)%Z -> SortedCodes 64 codes ->
  built (i_join prec emax DIM) (i_empty prec emax DIM) (fun r => nth r bounds (i_empty prec emax DIM)) 64 codes perm T ->
  let F := FloatOps prec emax in let B := bound_at prec emax DIM bounds in
  (forall c r, finite_point prec emax DIM c -> ieee_number prec emax r = true -> exists calls,
     spatial_query T (fun i => intersects_sb F c r (B i)) (fun v => intersects_sb F c r (raw_box prec emax DIM v)) (fun out v => (out ++ [v], false)) [] = Ok calls /\
     calls ≡ₚ List.filter (fun i => intersects_sb F c r (B i)) (seq 0 (length bounds))) /\
  (forall q, finite_box prec emax DIM q -> exists calls,
     spatial_query T (fun i => intersects_bb F q (B i)) (fun v => intersects_bb F q (raw_box prec emax DIM v)) (fun out v => (out ++ [v], false)) [] = Ok calls /\
     calls ≡ₚ List.filter (fun i => intersects_bb F q (B i)) (seq 0 (length bounds))) /\
  (forall c k cap, finite_point prec emax DIM c -> 1 <= k -> 2 <= length bounds ->
     let query dl dv := nearest_query T (o_ltb (NumOps prec emax)) (o_zero (NumOps prec emax)) (inf_num prec emax) dl dv k cap in
     let bd i := as_num prec emax (distance_pb F c (B i)) in
     (query bd (fun v => as_num prec emax (distance_pb F c (raw_box prec emax DIM v))) = Overflow \/
      exists out, query bd (fun v => as_num prec emax (distance_pb F c (raw_box prec emax DIM v))) = Ok out /\
        KNearest (o_ltb (NumOps prec emax)) (inf_num prec emax) bd k (seq 0 (length bounds)) out) /\
     forall r, ieee_finite prec emax r = true ->
     let bd i := as_num prec emax (distance_sb F c r (B i)) in
     (query bd (fun v => as_num prec emax (distance_sb F c r (raw_box prec emax DIM v))) = Overflow \/
      exists out, query bd (fun v => as_num prec emax (distance_sb F c r (raw_box prec emax DIM v))) = Ok out /\
        KNearest (o_ltb (NumOps prec emax)) (inf_num prec emax) bd k (seq 0 (length bounds)) out)).
Proof.
  intros prec emax DIM H1 H2 HD bounds codes perm T Hb HP HL Hn HS HB F B.
  assert (FLX.Prec_gt_0 prec) as HP1 by (unfold FLX.Prec_gt_0; lia). assert (Prec_lt_emax prec emax) as HM1 by (unfold Prec_lt_emax; lia).
  assert (forall i, nth i bounds (i_empty prec emax DIM) = i_empty prec emax DIM \/ finite_box prec emax DIM (B i)) as Hcase.
  { intros i. unfold B, bound_at. destruct (nth_in_or_default i bounds (i_empty prec emax DIM)) as [Hin| ->]; [|by left]. rewrite Forall_forall in Hb. apply Hb. by apply elem_of_list_In. }
  assert (forall c i v, finite_point prec emax DIM c -> ile prec emax DIM (nth i bounds (i_empty prec emax DIM)) v -> SFltb (distance_pb F c (B i)) (distance_pb F c (raw_box prec emax DIM v)) = false) as Hdist.
  { intros c i v Hc Hle. destruct (Hcase i) as [E|E].
    - unfold B, bound_at. rewrite E. unfold F. rewrite (empty_pb prec emax DIM) by done. apply (ltb_V_false prec emax); [done|by apply (num_pb prec emax DIM)|].
      simpl. apply (V_number prec emax). by apply (num_pb prec emax DIM).
    - apply (box_node prec emax DIM); done. }
  assert (forall pl pv, PruneSafe (ile prec emax DIM) (fun i => nth i bounds (i_empty prec emax DIM)) pl pv -> exists calls,
    spatial_query T pl pv (fun out v => (out ++ [v], false)) [] = Ok calls /\ calls ≡ₚ List.filter pl (seq 0 (length bounds))) as Hsp.
  { intros pl pv Hpl. destruct (C03_build_then_query _ (ile prec emax DIM) (i_join prec emax DIM) (i_empty prec emax DIM) _ 64 codes perm T _ _ (ibox_join prec emax DIM) ltac:(lia) ltac:(by rewrite HL) Hn HS HB Hpl) as (calls & E & HN & Hi).
    exists calls. split; [done|]. apply NoDup_Permutation; [done|apply NoDup_ListNoDup, List.NoDup_filter; apply seq_NoDup|].
    intros i. rewrite Hi, HL. rewrite elem_of_list_In, List.filter_In, <- elem_of_list_In, elem_of_seq. split; intros [? ?]; (split; [lia|done]). }
  split; [|split].
  - intros c r Hc Hr. apply Hsp. intros i v Hle. unfold intersects_sb. cbn [o_leb F FloatOps]. apply (leb_trans_false prec emax); [by apply (num_pb prec emax DIM)|by apply (num_pb prec emax DIM)|done|by apply Hdist].
  - intros q Hq. apply Hsp. intros i v Hle. rewrite <- (leaf_box prec emax DIM q Hq). unfold B, bound_at, F, ile, raw_box in *. rewrite !(overlap_raw prec emax).
    apply (C37_overlap _ (NumOps prec emax) (num_SW prec emax)). by apply BoxIn_raw.
  - intros c k cap Hc Hk H2p query bd. assert (length perm = length bounds) as HLp by (rewrite HP; apply seq_length).
    pose proof (C01_index_over_any_number_of_values _ (ile prec emax DIM) (i_join prec emax DIM) (i_empty prec emax DIM) _ 64 codes perm T (ibox_join prec emax DIM) ltac:(lia) ltac:(congruence) Hn HS HB) as HI.
    assert (forall dl dv, DistSafe (ile prec emax DIM) (fun i => nth i bounds (i_empty prec emax DIM)) (o_ltb (NumOps prec emax)) dl dv ->
      query dl dv = Overflow \/ exists out, query dl dv = Ok out /\ KNearest (o_ltb (NumOps prec emax)) (inf_num prec emax) dl k (seq 0 (length bounds)) out) as Hk2.
    { intros dl dv HDS. destruct (C05_nearest_k_closest _ _ (ile prec emax DIM) _ perm T (o_ltb (NumOps prec emax)) (o_zero (NumOps prec emax)) (inf_num prec emax) dl dv k cap HI (num_SW prec emax) HDS) as [?|(out & E & HK & _)]; [|done|by left|].
      { cbn [o_ltb o_zero NumOps FloatOps]. unfold inf_num. by rewrite !raw_as. }
      right. exists out. split; [exact E|]. destruct (HK ltac:(lia)) as [K1 K2 K3 K4 K5]. split; try done.
      - destruct K1 as [rest K1]. exists rest. by rewrite <- HP.
      - rewrite K2. by rewrite HP.
      - intros rest Hr a b Ha Hb'. apply (K5 rest); [by rewrite HP|done|done]. }
    split.
    + apply Hk2. intros i v Hle. unfold bd. rewrite num_ltb; [by apply Hdist|by apply (num_pb prec emax DIM)..].
    + intros r Hr. apply Hk2. intros i v Hle. unfold distance_sb. cbn [o_sub o_zero F FloatOps].
      assert (forall b : ibox prec emax DIM, ieee_number prec emax (distance_pb F c (raw_box prec emax DIM b)) = true /\ (0 <= IeeeProof.V emax (distance_pb F c (raw_box prec emax DIM b)))%R) as Hx
        by (intros b; split; [by apply (num_pb prec emax DIM)|by apply (nonneg_pb prec emax DIM)]).
      destruct (Hx v) as [X1 X2]. destruct (Hx (nth i bounds (i_empty prec emax DIM))) as [X3 X4].
      rewrite num_ltb by (by apply (clamp_number prec emax)). apply (clamp_mono prec emax); try done. split; [done|]. apply (ltb_V_false prec emax); [done..|]. by apply Hdist.
Qed.
Print Assumptions C77_top_tree.

(** ** Examples: single precision, two dimensions; the second of three ranks has no points. *)
Definition exf (n : positive) (e : Z) : spec_float := SpecFloat.binary_normalize 24 128 (Zpos n) e false.
Definition exf_values : list (list (list spec_float)) := [[[exf 1 0; exf 3 0]; [exf 5 (-1); exf 1 0]]; []; [[exf 1 60; exf 7 (-3)]]].
Definition exf_bounds : list (ibox 24 128 2) :=
  [as_ibox 24 128 2 [(exf 1 0, exf 5 (-1)); (exf 1 0, exf 3 0)]; i_empty 24 128 2; as_ibox 24 128 2 (point_box [exf 1 60; exf 7 (-3)])].
Definition exf_preds : list (list (list spec_float * nat)) := [[([exf 2 0; exf 2 0], 2)]; []; []].
Lemma exf_fin x y : ieee_finite 24 128 x = true -> ieee_finite 24 128 y = true -> finite_point 24 128 2 [x; y].
Proof. intros Hx Hy. split; [done|]. by repeat constructor. Qed.
Example C77_example :
  (2 <= 24)%Z /\ (2 * 24 <= 128)%Z /\ 1 <= 2 /\ Forall (Forall (finite_point 24 128 2)) exf_values /\ Forall2 (rank_bounds 24 128 2) exf_values exf_bounds /\
  Forall (fun q => finite_point 24 128 2 q.1) (concat exf_preds) /\ length exf_preds = length exf_values /\
  (forall q v, q ∈ concat exf_preds -> v ∈ concat exf_values -> SFltb (distance_pp (FloatOps 24 128) q.1 v) (S754_infinity false) = true) /\
  Forall (fun b => b = i_empty 24 128 2 \/ finite_box 24 128 2 (raw_box 24 128 2 b)) exf_bounds.
Proof.
  split; [lia|]. split; [lia|]. split; [lia|].
  assert (forall b, finite_box 24 128 2 b -> raw_box 24 128 2 (as_ibox 24 128 2 b) = b) as Hl by (intros b Hb; by apply (leaf_box 24 128 (Hprec := eq_refl) (Hmax := eq_refl) 2)).
  assert (finite_box 24 128 2 [(exf 1 0, exf 5 (-1)); (exf 1 0, exf 3 0)]) as B1 by (split; [done|]; by repeat constructor).
  assert (finite_box 24 128 2 (point_box [exf 1 60; exf 7 (-3)])) as B2 by (split; [done|]; by repeat constructor).
  split; [repeat constructor|]. split.
  { unfold exf_values, exf_bounds. constructor; [|constructor; [|constructor; [|constructor]]].
    - split; [done|]. intros v Hv. rewrite Hl by done. repeat (apply elem_of_cons in Hv as [->|Hv]); try (by apply elem_of_nil in Hv); by repeat constructor.
    - split; [done|]. intros v Hv. by apply elem_of_nil in Hv.
    - split; [done|]. intros v Hv. rewrite Hl by done. repeat (apply elem_of_cons in Hv as [->|Hv]); try (by apply elem_of_nil in Hv); by repeat constructor. }
  split; [repeat constructor|]. split; [done|]. split.
  { intros q v Hq Hv. simpl in Hq, Hv.
    repeat (apply elem_of_cons in Hq as [->|Hq]); try (by apply elem_of_nil in Hq);
    repeat (apply elem_of_cons in Hv as [->|Hv]); try (by apply elem_of_nil in Hv); vm_compute; reflexivity. }
  unfold exf_bounds. constructor; [right; by rewrite Hl|]. constructor; [by left|]. constructor; [right; by rewrite Hl|constructor].
Qed.
(** a distance that r + rho alone does not reach *)
Example C77_sphere_example :
  let d := exf 16766513 (-20) in let r := exf 217 (-21) in let rho := kmax (FloatOps 24 128) (SFsub 24 128 d r) (S754_zero false) in
  ieee_finite 24 128 d = true /\ ieee_finite 24 128 r = true /\ ieee_number 24 128 rho = true /\ SFleb (S754_zero false) d = true /\ SFleb (S754_zero false) r = true /\
  SFleb rho rho = true /\ SFleb d (SFadd 24 128 r rho) = false.
Proof. cbn zeta. split_and!; vm_compute; reflexivity. Qed.
Example C77_next_example : ieee_finite 24 128 (exf 1 0) = true /\ SFltb (exf 1 0) (float_max 24 128) = true /\ nextafter 24 128 (SFopp (exf 1 0)) (float_max 24 128) = SFsucc 24 128 (SFopp (exf 1 0)) /\
  nextafter 24 128 (exf 1 0) (float_max 24 128) = SFsucc 24 128 (exf 1 0).
Proof. cbn zeta. split_and!; vm_compute; reflexivity. Qed.
(** a format that is too narrow: in half precision an empty box is at a finite distance of the largest numbers *)
Example C77_empty_rank_half : distance_pb (FloatOps 11 16) [S754_finite false 2046 5] (raw_box 11 16 1 (i_empty 11 16 1)) = S754_finite false 1024 (-5).
Proof. vm_compute. reflexivity. Qed.
