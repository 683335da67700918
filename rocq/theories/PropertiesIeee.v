(** C67, C68, C69: searching and clustering points and boxes with floating-point coordinates, in the arithmetic the code uses.
    For every IEEE format and all finite coordinates, including those whose differences, squares or sums overflow. *)
From Coq Require Import Reals Lra SpecFloat.
From Flocq Require Import Core IEEE754.BinarySingleNaN.
From Verif Require Import Base HeapSpec TreeSpec TraversalSpec GeomOps BoxModel BoxSpec IeeeSpec IeeeModel IeeeProof IeeeBoxProof PropertiesBox PropertiesTraversal PropertiesNeighbor PropertiesDbscan PropertiesHdbscan PropertiesCore.
From Verif Require Import HdbscanProof CoreModel CoreProof PropertiesBoruvka.
Local Open Scope nat_scope.

(** A point and a (nonempty) box of DIM finite coordinates. *)
Definition finite_point (prec emax : Z) (DIM : nat) (p : list spec_float) : Prop := length p = DIM /\ Forall (fun x => ieee_finite prec emax x = true) p.
Definition finite_box (prec emax : Z) (DIM : nat) (b : list (spec_float * spec_float)) : Prop :=
  length b = DIM /\ Forall (fun c => ieee_finite prec emax c.1 = true /\ ieee_finite prec emax c.2 = true /\ SFltb c.2 c.1 = false) b.

Section Ieee.
Context (prec emax : Z) {Hprec : FLX.Prec_gt_0 prec} {Hmax : Prec_lt_emax prec emax} (DIM : nat).
Notation num := (IeeeModel.num prec emax).
Notation O := (NumOps prec emax).
Notation F := (FloatOps prec emax).
Notation raw := (raw prec emax).
Notation as_num := (as_num prec emax).
Notation ibox := (ibox prec emax DIM).
Notation rbox := (raw_box prec emax DIM).
Notation leaf := (as_ibox prec emax DIM).
Notation ltb := (o_ltb O).
Notation isfin := (isfin prec emax).
Notation P := (point_at DIM).
Definition ile (a b : ibox) : Prop := BoxIn SFltb (rbox a) (rbox b).

Lemma BoxIn_raw a b : BoxIn SFltb (map (fun c => (raw c.1, raw c.2)) a) (map (fun c => (raw c.1, raw c.2)) b) <-> BoxIn ltb a b.
Proof. unfold BoxIn. rewrite Forall2_fmap. done. Qed.
Lemma i_join_raw a b : proj1_sig (i_join prec emax DIM a b) = expand_box O (proj1_sig a) (proj1_sig b).
Proof.
  unfold i_join. destruct (decide _) as [|H]; [done|]. exfalso. apply H. exact (expand_valid O (num_SW prec emax) DIM _ _ _ _ (proj2_sig a) (proj2_sig b)).
Qed.
Lemma ibox_join : JoinSemi ile (i_join prec emax DIM) (i_empty prec emax DIM).
Proof.
  pose proof (C36_tree_join O (num_SW prec emax) DIM (min_num prec emax) (max_num prec emax)) as [J1 J2 J3 J4 J5 J6]. unfold ile, raw_box. simpl in *.
  split; intros *; rewrite ?BoxIn_raw, ?i_join_raw.
  - exact (J1 x).
  - exact (J2 x y z).
  - exact (J3 x y).
  - exact (J4 x y).
  - exact (J5 x y z).
  - exact (J6 x).
Qed.

(** Points of finite coordinates as lists of numbers. *)
Definition lift (p : list spec_float) : list num := map as_num p.
Lemma lift_raw p : Forall (fun x => ieee_finite prec emax x = true) p -> map raw (lift p) = p /\ Forall isfin (lift p).
Proof.
  induction 1 as [|x p Hx Hp [IH1 IH2]]; [split; [done|constructor]|]. assert (raw (as_num x) = x) as E by (by apply raw_as, finite_number). simpl. rewrite E. split; [by f_equal|]. constructor; [|done]. unfold IeeeBoxProof.isfin. by rewrite E.
Qed.
Lemma point_at_finite pts i : Forall (finite_point prec emax DIM) pts -> finite_point prec emax DIM (P pts i).
Proof.
  intros H. unfold point_at. destruct (nth_in_or_default i pts (replicate DIM (S754_zero false))) as [Hin| ->].
  - rewrite Forall_forall in H. apply H. by apply elem_of_list_In.
  - split; [apply replicate_length|]. by apply Forall_replicate.
Qed.
Lemma box_at_finite bxs i : Forall (finite_box prec emax DIM) bxs -> finite_box prec emax DIM (box_at DIM bxs i).
Proof.
  intros H. unfold box_at. destruct (nth_in_or_default i bxs (replicate DIM (S754_zero false, S754_zero false))) as [Hin| ->].
  - rewrite Forall_forall in H. apply H. by apply elem_of_list_In.
  - split; [apply replicate_length|]. by apply Forall_replicate.
Qed.
Lemma leaf_box b : finite_box prec emax DIM b -> rbox (leaf b) = b.
Proof.
  intros [HL HF]. unfold as_ibox. destruct (decide _) as [H|H].
  - unfold raw_box. simpl. clear H HL. induction HF as [|c b (H1 & H2 & H3) HF IH]; [done|]. simpl. rewrite !raw_as by (by apply finite_number). rewrite IH. by destruct c.
  - exfalso. apply H. split; [by rewrite map_length|]. clear H HL. induction HF as [|c b (H1 & H2 & H3) HF IH]; cbn [map]; constructor; [|done]. cbn [fst snd].
    assert (forall x, ieee_finite prec emax x = true -> isfin (as_num x)) as Hf by (intros x Hx; unfold IeeeBoxProof.isfin; by rewrite raw_as by (by apply finite_number)).
    rewrite !(ltb_false prec emax). split; apply (max_val prec emax); by apply Hf.
Qed.
Lemma point_finite_box p : finite_point prec emax DIM p -> finite_box prec emax DIM (point_box p).
Proof.
  intros [HL HF]. unfold point_box. split; [by rewrite map_length|]. apply Forall_map. eapply Forall_impl; [exact HF|]. intros x Hx. cbn. split_and!; try done. apply ltb_irrefl.
Qed.
Lemma upb_raw (b : ibox) : rbox b = map (fun c => (raw c.1, raw c.2)) (proj1_sig b).
Proof. done. Qed.

(** Distances never are NaN. *)
Lemma no_nan_pp p q : finite_point prec emax DIM p -> finite_point prec emax DIM q -> raw (distance_pp O (lift p) (lift q)) = distance_pp F p q.
Proof.
  intros [_ Hp] [_ Hq]. destruct (lift_raw p Hp) as [E1 F1]. destruct (lift_raw q Hq) as [E2 F2]. rewrite (distance_raw prec emax) by done. by rewrite E1, E2.
Qed.
Lemma no_nan_pb p (b : ibox) : finite_point prec emax DIM p -> raw (distance_pb O (lift p) (proj1_sig b)) = distance_pb F p (rbox b).
Proof.
  intros [_ Hp]. destruct (lift_raw p Hp) as [E1 F1]. rewrite (distance_pb_raw prec emax) by (done || exact (proj2 (box_okc prec emax DIM b))). by rewrite E1.
Qed.
Lemma point_node p q (b : ibox) : finite_point prec emax DIM p -> finite_point prec emax DIM q -> BoxIn SFltb (point_box q) (rbox b) ->
  SFltb (distance_pp F p q) (distance_pb F p (rbox b)) = false.
Proof.
  intros Hp Hq Hin. rewrite <- no_nan_pp, <- no_nan_pb by done. change (ltb (distance_pp O (lift p) (lift q)) (distance_pb O (lift p) (proj1_sig b)) = false).
  apply (ltb_false prec emax). destruct Hp as [HLp Hp], Hq as [HLq Hq]. destruct (lift_raw p Hp) as [E1 F1]. destruct (lift_raw q Hq) as [E2 F2].
  apply (point_box_mono prec emax); try done; [unfold lift; rewrite !map_length; congruence|exact (proj2 (box_okc prec emax DIM b))|].
  apply (point_box_in O). apply BoxIn_raw. rewrite <- E2 in Hin. unfold point_box in *. rewrite map_map in *. exact Hin.
Qed.
Lemma box_node p c (b : ibox) : finite_point prec emax DIM p -> finite_box prec emax DIM c -> BoxIn SFltb c (rbox b) ->
  SFltb (distance_pb F p c) (distance_pb F p (rbox b)) = false.
Proof.
  intros Hp Hc Hin. pose proof (leaf_box c Hc) as Ec. rewrite <- Ec in Hin |- *. rewrite <- !no_nan_pb by done. change (ltb (distance_pb O (lift p) (proj1_sig (leaf c))) (distance_pb O (lift p) (proj1_sig b)) = false).
  apply (ltb_false prec emax). destruct Hp as [HLp Hp]. destruct (lift_raw p Hp) as [E1 F1]. pose proof (box_okc prec emax DIM (leaf c)) as [HL1 HO1].
  apply (box_mono prec emax); try done; [unfold lift; rewrite map_length; congruence|exact (proj2 (box_okc prec emax DIM b))| |by apply BoxIn_raw].
  destruct Hc as [_ Hc]. assert (Forall (fun c => SFltb c.2 c.1 = false) (rbox (leaf c))) as Hpr by (rewrite Ec; eapply Forall_impl; [exact Hc|]; intros d (_ & _ & Hd); exact Hd).
  unfold raw_box in Hpr. apply Forall_map in Hpr. exact Hpr.
Qed.
End Ieee.

(** The tree over finite geometries with the bounding boxes [bounds]. *)
Definition float_tree (prec emax : Z) (DIM : nat) (bounds : nat -> list (spec_float * spec_float)) (codes : list Z) (perm : list nat) (T : tree (ibox prec emax DIM)) : Prop :=
  built (i_join prec emax DIM) (i_empty prec emax DIM) (fun i => as_ibox prec emax DIM (bounds i)) 64 codes perm T.

Section Queries.
Context (prec emax : Z) {Hprec : FLX.Prec_gt_0 prec} {Hmax : Prec_lt_emax prec emax} (DIM : nat).
Notation F := (FloatOps prec emax).
Notation rbox := (raw_box prec emax DIM).
Notation P := (point_at DIM).
Notation B := (box_at DIM).
Notation tle := (ile prec emax DIM).

Lemma num_pp p q : finite_point prec emax DIM p -> finite_point prec emax DIM q -> ieee_number prec emax (distance_pp F p q) = true.
Proof. intros Hp Hq. rewrite <- (no_nan_pp prec emax DIM) by done. apply raw_number. Qed.
Lemma num_pb p (b : ibox prec emax DIM) : finite_point prec emax DIM p -> ieee_number prec emax (distance_pb F p (rbox b)) = true.
Proof. intros Hp. rewrite <- (no_nan_pb prec emax DIM) by done. apply raw_number. Qed.
Lemma leb_trans_false d e r : ieee_number prec emax d = true -> ieee_number prec emax e = true -> ieee_number prec emax r = true -> SFltb e d = false -> SFleb e r = true -> SFleb d r = true.
Proof. intros Hd He Hr. rewrite (ltb_V_false prec emax), !(leb_V prec emax) by done. intros. lra. Qed.

Lemma safe_within pts c r : Forall (finite_point prec emax DIM) pts -> finite_point prec emax DIM c -> ieee_number prec emax r = true ->
  PruneSafe tle (fun i => as_ibox prec emax DIM (point_box (P pts i))) (fun i => intersects_sp F c r (P pts i)) (fun v => intersects_sb F c r (rbox v)).
Proof.
  intros Hpts Hc Hr i v Hle. pose proof (point_at_finite prec emax DIM pts i Hpts) as Hi. unfold intersects_sp, intersects_sb. cbn [o_leb FloatOps].
  unfold ile in Hle. rewrite (leaf_box prec emax DIM) in Hle by (by apply point_finite_box). apply leb_trans_false; [by apply num_pb|by apply num_pp|done|]. by apply point_node.
Qed.
Lemma safe_nearest pts c : Forall (finite_point prec emax DIM) pts -> finite_point prec emax DIM c ->
  DistSafe tle (fun i => as_ibox prec emax DIM (point_box (P pts i))) (o_ltb (NumOps prec emax)) (fun i => as_num prec emax (distance_pp F c (P pts i))) (fun v => as_num prec emax (distance_pb F c (rbox v))).
Proof.
  intros Hpts Hc i v Hle. pose proof (point_at_finite prec emax DIM pts i Hpts) as Hi.
  unfold ile in Hle. rewrite (leaf_box prec emax DIM) in Hle by (by apply point_finite_box). cbn [o_ltb NumOps FloatOps].
  rewrite !raw_as by (by apply num_pb || by apply num_pp). by apply point_node.
Qed.
Lemma safe_within_box bxs c r : Forall (finite_box prec emax DIM) bxs -> finite_point prec emax DIM c -> ieee_number prec emax r = true ->
  PruneSafe tle (fun i => as_ibox prec emax DIM (B bxs i)) (fun i => intersects_sb F c r (B bxs i)) (fun v => intersects_sb F c r (rbox v)).
Proof.
  intros Hb Hc Hr i v Hle. pose proof (box_at_finite prec emax DIM bxs i Hb) as Hi. unfold intersects_sb. cbn [o_leb FloatOps].
  unfold ile in Hle. pose proof (leaf_box prec emax DIM _ Hi) as El. rewrite El in Hle. apply leb_trans_false; [by apply num_pb|rewrite <- El; by apply num_pb|done|]. by apply box_node.
Qed.
Lemma safe_nearest_box bxs c : Forall (finite_box prec emax DIM) bxs -> finite_point prec emax DIM c ->
  DistSafe tle (fun i => as_ibox prec emax DIM (B bxs i)) (o_ltb (NumOps prec emax)) (fun i => as_num prec emax (distance_pb F c (B bxs i))) (fun v => as_num prec emax (distance_pb F c (rbox v))).
Proof.
  intros Hb Hc i v Hle. pose proof (box_at_finite prec emax DIM bxs i Hb) as Hi. unfold ile in Hle. pose proof (leaf_box prec emax DIM _ Hi) as El. rewrite El in Hle.
  cbn [o_ltb NumOps FloatOps]. rewrite !raw_as; [by apply box_node|by apply num_pb|rewrite <- El; by apply num_pb].
Qed.
(** Overlap of boxes compares coordinates only. *)
Lemma overlap_raw (a b : list (IeeeModel.num prec emax * IeeeModel.num prec emax)) :
  intersects_bb F (map (fun c => (raw prec emax c.1, raw prec emax c.2)) a) (map (fun c => (raw prec emax c.1, raw prec emax c.2)) b) = intersects_bb (NumOps prec emax) a b.
Proof. unfold intersects_bb. revert b. induction a as [|[a1 a2] a IH]; intros [|[b1 b2] b]; try done. cbn [map zip zip_with forallb fst snd]. f_equal. apply IH. Qed.
Lemma safe_overlap bxs q : Forall (finite_box prec emax DIM) bxs -> finite_box prec emax DIM q ->
  PruneSafe tle (fun i => as_ibox prec emax DIM (B bxs i)) (fun i => intersects_bb F q (B bxs i)) (fun v => intersects_bb F q (rbox v)).
Proof.
  intros Hb Hq i v Hle. pose proof (box_at_finite prec emax DIM bxs i Hb) as Hi. rewrite <- (leaf_box prec emax DIM _ Hi), <- (leaf_box prec emax DIM q Hq).
  unfold ile in Hle. rewrite (leaf_box prec emax DIM _ Hi) in Hle. rewrite <- (leaf_box prec emax DIM _ Hi) in Hle.
  unfold raw_box in *. rewrite !overlap_raw. apply (C37_overlap _ (NumOps prec emax) (num_SW prec emax)). by apply BoxIn_raw.
Qed.
End Queries.

(** ** C67: queries over finite geometries *)
(** Distances between finite points, and from a finite point to a bounding box of the tree, are never NaN: they are numbers, maybe
    infinite, of sign +; equal in both directions bit for bit; zero from a point to itself; and never greater for a box than
    for a point or box inside it. *)
Theorem C67_distances : forall prec emax DIM, (0 < prec)%Z -> (prec < emax)%Z -> forall p q, finite_point prec emax DIM p -> finite_point prec emax DIM q ->
  let F := FloatOps prec emax in
  (ieee_number prec emax (distance_pp F p q) = true /\ sign_SF (distance_pp F p q) = false /\ distance_pp F p q = distance_pp F q p /\ SFeqb (distance_pp F p p) (S754_zero false) = true) /\
  forall b : ibox prec emax DIM, ieee_number prec emax (distance_pb F p (raw_box prec emax DIM b)) = true /\
    (BoxIn SFltb (point_box q) (raw_box prec emax DIM b) -> SFltb (distance_pp F p q) (distance_pb F p (raw_box prec emax DIM b)) = false) /\
    forall c, finite_box prec emax DIM c -> BoxIn SFltb c (raw_box prec emax DIM b) -> SFltb (distance_pb F p c) (distance_pb F p (raw_box prec emax DIM b)) = false.
Proof.
  intros prec emax DIM H1 H2 p q Hp Hq. change (FLX.Prec_gt_0 prec) in H1. change (Prec_lt_emax prec emax) in H2. split; [|intros b; split; [by apply (num_pb prec emax DIM)|split]].
  - split; [by apply (num_pp prec emax DIM)|]. split; [rewrite <- (no_nan_pp prec emax DIM) by done; apply (distance_sign prec emax)|]. split.
    + rewrite <- !(no_nan_pp prec emax DIM) by done. f_equal. destruct Hp as [_ Hp], Hq as [_ Hq]. destruct (lift_raw prec emax p Hp) as [_ F1]. destruct (lift_raw prec emax q Hq) as [_ F2]. by apply distance_sym.
    + apply (eqb_V prec emax); [by apply (num_pp prec emax DIM)|done|]. rewrite <- (no_nan_pp prec emax DIM) by done. destruct Hp as [_ Hp]. destruct (lift_raw prec emax p Hp) as [_ F1]. by apply (distance_self prec emax).
  - by apply (point_node prec emax DIM).
  - intros c Hc. by apply (box_node prec emax DIM).
Qed.
Print Assumptions C67_distances.

(** The tree over finite points, whatever schedule built it: a query for the points within a distance reports each of them once and
    no other, and a nearest query reports k nearest; distances and comparisons computed as the code does. *)
Theorem C67_points : forall prec emax DIM, (0 < prec)%Z -> (prec < emax)%Z ->
  forall pts codes perm T, Forall (finite_point prec emax DIM) pts -> perm ≡ₚ seq 0 (length pts) -> length codes = length pts ->
  (Z.of_nat (length codes) <= 2 ^ 63)%Z -> SortedCodes 64 codes ->
  float_tree prec emax DIM (fun i => point_box (point_at DIM pts i)) codes perm T ->
  forall c, finite_point prec emax DIM c ->
  let F := FloatOps prec emax in
  (forall r, ieee_number prec emax r = true -> exists calls,
     spatial_query T (fun i => intersects_sp F c r (point_at DIM pts i)) (fun v => intersects_sb F c r (raw_box prec emax DIM v)) (fun out v => (out ++ [v], false)) [] = Ok calls /\
     NoDup calls /\ forall i, i ∈ calls <-> exists p, pts !! i = Some p /\ SFleb (distance_pp F c p) r = true) /\
  (forall k cap, 1 <= k -> 2 <= length pts ->
     let dl i := as_num prec emax (distance_pp F c (point_at DIM pts i)) in let dv v := as_num prec emax (distance_pb F c (raw_box prec emax DIM v)) in
     nearest_query T (o_ltb (NumOps prec emax)) (o_zero (NumOps prec emax)) (inf_num prec emax) dl dv k cap = Overflow \/
     exists out, nearest_query T (o_ltb (NumOps prec emax)) (o_zero (NumOps prec emax)) (inf_num prec emax) dl dv k cap = Ok out /\
       KNearest SFltb (S754_infinity false) (fun i => distance_pp F c (point_at DIM pts i)) k (seq 0 (length pts)) out).
Proof.
  intros prec emax DIM H1 H2 pts codes perm T Hpts HP HL Hn HS HB c Hc. change (FLX.Prec_gt_0 prec) in H1. change (Prec_lt_emax prec emax) in H2. cbn zeta. split.
  - intros r Hr. destruct (C03_build_then_query _ (ile prec emax DIM) (i_join prec emax DIM) (i_empty prec emax DIM) _ 64 codes perm T _ _ (ibox_join prec emax DIM) ltac:(lia) ltac:(by rewrite HL) Hn HS HB (safe_within prec emax DIM pts c r Hpts Hc Hr)) as (calls & E & HN & Hi).
    exists calls. split; [done|]. split; [done|]. intros i. rewrite Hi, HL. split.
    + intros [Hlt Hw]. destruct (lookup_lt_is_Some_2 pts i Hlt) as [p Hp]. exists p. split; [done|]. unfold intersects_sp, point_at in Hw. by rewrite (nth_lookup_Some _ _ _ _ Hp) in Hw.
    + intros (p & Hp & Hw). split; [by eapply lookup_lt_Some|]. unfold intersects_sp, point_at. by rewrite (nth_lookup_Some _ _ _ _ Hp).
  - intros k cap Hk H2p. assert (length perm = length pts) as HLp by (rewrite HP; apply seq_length).
    pose proof (C01_index_over_any_number_of_values _ (ile prec emax DIM) (i_join prec emax DIM) (i_empty prec emax DIM) _ 64 codes perm T (ibox_join prec emax DIM) ltac:(lia) ltac:(congruence) Hn HS HB) as HI.
    destruct (C05_nearest_k_closest _ _ (ile prec emax DIM) _ perm T (o_ltb (NumOps prec emax)) (o_zero (NumOps prec emax)) (inf_num prec emax) _ _ k cap HI (num_SW prec emax) (safe_nearest prec emax DIM pts c Hpts Hc)) as [?|(out & E & HK & _)]; [|done|by left|].
    { cbn [o_ltb o_zero NumOps FloatOps]. unfold inf_num. by rewrite !raw_as. }
    right. exists out. split; [exact E|]. specialize (HK ltac:(lia)).
    assert (forall i j, o_ltb (NumOps prec emax) (as_num prec emax (distance_pp (FloatOps prec emax) c (point_at DIM pts i))) (as_num prec emax (distance_pp (FloatOps prec emax) c (point_at DIM pts j))) =
      SFltb (distance_pp (FloatOps prec emax) c (point_at DIM pts i)) (distance_pp (FloatOps prec emax) c (point_at DIM pts j))) as E1.
    { intros i j. cbn [o_ltb NumOps FloatOps]. by rewrite !raw_as by (by apply (num_pp prec emax DIM); [|apply point_at_finite]). }
    assert (forall i, o_ltb (NumOps prec emax) (as_num prec emax (distance_pp (FloatOps prec emax) c (point_at DIM pts i))) (inf_num prec emax) =
      SFltb (distance_pp (FloatOps prec emax) c (point_at DIM pts i)) (S754_infinity false)) as E2.
    { intros i. cbn [o_ltb NumOps FloatOps]. unfold inf_num. rewrite (raw_as _ _ (S754_infinity false)) by done. by rewrite !raw_as by (by apply (num_pp prec emax DIM); [|apply point_at_finite]). }
    destruct HK as [K1 K2 K3 K4 K5]. split.
    + destruct K1 as [rest K1]. exists rest. by rewrite <- HP.
    + rewrite K2. f_equal. rewrite <- HP. f_equal. apply list_filter_iff. intros i. by rewrite E2.
    + intros o Ho. rewrite <- E2. by apply K3.
    + revert K4. unfold Ascending. intros K4 i j x y. specialize (K4 i j x y). by rewrite E1 in K4.
    + intros rest Hr a b Ha Hb. rewrite <- E1. apply (K5 rest); [by rewrite HP|done|done].
Qed.
Print Assumptions C67_points.

(** The tree over finite nonempty boxes: the boxes within a distance of a point, the boxes meeting a box, the nearest boxes. *)
Theorem C67_boxes : forall prec emax DIM, (0 < prec)%Z -> (prec < emax)%Z ->
  forall bxs codes perm T, Forall (finite_box prec emax DIM) bxs -> perm ≡ₚ seq 0 (length bxs) -> length codes = length bxs ->
  (Z.of_nat (length codes) <= 2 ^ 63)%Z -> SortedCodes 64 codes ->
  float_tree prec emax DIM (box_at DIM bxs) codes perm T ->
  let F := FloatOps prec emax in
  (forall c r, finite_point prec emax DIM c -> ieee_number prec emax r = true -> exists calls,
     spatial_query T (fun i => intersects_sb F c r (box_at DIM bxs i)) (fun v => intersects_sb F c r (raw_box prec emax DIM v)) (fun out v => (out ++ [v], false)) [] = Ok calls /\
     NoDup calls /\ forall i, i ∈ calls <-> exists b, bxs !! i = Some b /\ SFleb (distance_pb F c b) r = true) /\
  (forall q, finite_box prec emax DIM q -> exists calls,
     spatial_query T (fun i => intersects_bb F q (box_at DIM bxs i)) (fun v => intersects_bb F q (raw_box prec emax DIM v)) (fun out v => (out ++ [v], false)) [] = Ok calls /\
     NoDup calls /\ forall i, i ∈ calls <-> exists b, bxs !! i = Some b /\ intersects_bb F q b = true) /\
  (forall c k cap, finite_point prec emax DIM c -> 1 <= k -> 2 <= length bxs ->
     let dl i := as_num prec emax (distance_pb F c (box_at DIM bxs i)) in let dv v := as_num prec emax (distance_pb F c (raw_box prec emax DIM v)) in
     nearest_query T (o_ltb (NumOps prec emax)) (o_zero (NumOps prec emax)) (inf_num prec emax) dl dv k cap = Overflow \/
     exists out, nearest_query T (o_ltb (NumOps prec emax)) (o_zero (NumOps prec emax)) (inf_num prec emax) dl dv k cap = Ok out /\
       KNearest SFltb (S754_infinity false) (fun i => distance_pb F c (box_at DIM bxs i)) k (seq 0 (length bxs)) out).
Proof.
  intros prec emax DIM H1 H2 bxs codes perm T Hb HP HL Hn HS HB. change (FLX.Prec_gt_0 prec) in H1. change (Prec_lt_emax prec emax) in H2. cbn zeta.
  assert (forall pl pv, PruneSafe (ile prec emax DIM) (fun i => as_ibox prec emax DIM (box_at DIM bxs i)) (fun i => pl (box_at DIM bxs i)) pv -> exists calls,
    spatial_query T (fun i => pl (box_at DIM bxs i)) pv (fun out v => (out ++ [v], false)) [] = Ok calls /\ NoDup calls /\ forall i, i ∈ calls <-> exists b, bxs !! i = Some b /\ pl b = true) as Hsp.
  { intros pl pv Hpl. destruct (C03_build_then_query _ (ile prec emax DIM) (i_join prec emax DIM) (i_empty prec emax DIM) _ 64 codes perm T _ _ (ibox_join prec emax DIM) ltac:(lia) ltac:(by rewrite HL) Hn HS HB Hpl) as (calls & E & HN & Hi).
    exists calls. split; [done|]. split; [done|]. intros i. rewrite Hi, HL. split.
    + intros [Hlt Hw]. destruct (lookup_lt_is_Some_2 bxs i Hlt) as [b Hbi]. exists b. split; [done|]. unfold box_at in Hw. by rewrite (nth_lookup_Some _ _ _ _ Hbi) in Hw.
    + intros (b & Hbi & Hw). split; [by eapply lookup_lt_Some|]. unfold box_at. by rewrite (nth_lookup_Some _ _ _ _ Hbi). }
  split; [|split].
  - intros c r Hc Hr. apply (Hsp (intersects_sb (FloatOps prec emax) c r)). by apply safe_within_box.
  - intros q Hq. apply (Hsp (intersects_bb (FloatOps prec emax) q)). by apply safe_overlap.
  - intros c k cap Hc Hk H2p. assert (length perm = length bxs) as HLp by (rewrite HP; apply seq_length).
    pose proof (C01_index_over_any_number_of_values _ (ile prec emax DIM) (i_join prec emax DIM) (i_empty prec emax DIM) _ 64 codes perm T (ibox_join prec emax DIM) ltac:(lia) ltac:(congruence) Hn HS HB) as HI.
    destruct (C05_nearest_k_closest _ _ (ile prec emax DIM) _ perm T (o_ltb (NumOps prec emax)) (o_zero (NumOps prec emax)) (inf_num prec emax) _ _ k cap HI (num_SW prec emax) (safe_nearest_box prec emax DIM bxs c Hb Hc)) as [?|(out & E & HK & _)]; [|done|by left|].
    { cbn [o_ltb o_zero NumOps FloatOps]. unfold inf_num. by rewrite !raw_as. }
    right. exists out. split; [exact E|]. specialize (HK ltac:(lia)).
    assert (forall i, raw prec emax (as_num prec emax (distance_pb (FloatOps prec emax) c (box_at DIM bxs i))) = distance_pb (FloatOps prec emax) c (box_at DIM bxs i)) as E0.
    { intros i. apply raw_as. rewrite <- (leaf_box prec emax DIM (box_at DIM bxs i)) by (by apply box_at_finite). by apply (num_pb prec emax DIM). }
    assert (raw prec emax (inf_num prec emax) = S754_infinity false) as E3 by (by apply raw_as).
    assert (forall a b, o_ltb (NumOps prec emax) a b = SFltb (raw prec emax a) (raw prec emax b)) as E4 by done.
    destruct HK as [K1 K2 K3 K4 K5]. split.
    + destruct K1 as [rest K1]. exists rest. by rewrite <- HP.
    + rewrite K2. f_equal. rewrite <- HP. f_equal. apply list_filter_iff. intros i. by rewrite E4, E0, E3.
    + intros o Ho. specialize (K3 o Ho). by rewrite E4, E0, E3 in K3.
    + intros i j x y. specialize (K4 i j x y). cbn beta in K4. by rewrite E4, !E0 in K4.
    + intros rest Hr a b Ha Hb'. rewrite <- (E0 a), <- (E0 b), <- E4. apply (K5 rest); [by rewrite HP|done|done].
Qed.
Print Assumptions C67_boxes.

(** ** C68: DBSCAN on finite points *)
(** Two points are neighbours if their computed distance is at most eps.  FDBSCAN, and its DBSCAN* variant, yield a valid clustering for this
    relation, for every interleaving; also when distances overflow. *)
Theorem C68_dbscan : forall prec emax DIM, (0 < prec)%Z -> (prec < emax)%Z ->
  forall pts codes perm T eps minpts, Forall (finite_point prec emax DIM) pts -> perm ≡ₚ seq 0 (length pts) -> length codes = length pts ->
  (Z.of_nat (length codes) <= 2 ^ 63)%Z -> SortedCodes 64 codes ->
  float_tree prec emax DIM (fun i => point_box (point_at DIM pts i)) codes perm T ->
  ieee_number prec emax eps = true -> SFleb (S754_zero false) eps = true -> 2 <= minpts ->
  let F := FloatOps prec emax in
  let near a b := SFleb (distance_pp F (point_at DIM pts a) (point_at DIM pts b)) eps in
  let pv a v := intersects_sb F (point_at DIM pts a) eps (raw_box prec emax DIM v) in
  exists counts outs, CountsOf T near pv (length pts) minpts counts /\ PairsOf T near pv outs /\
    fdbscan false (length pts) minpts counts outs (ValidDBSCAN (length pts) minpts near) /\
    fdbscan true (length pts) minpts counts outs (ValidDBSCANStar (length pts) minpts near).
Proof.
  intros prec emax DIM H1 H2 pts codes perm T eps minpts Hpts HP HL Hn HS HB He He0 Hm. change (FLX.Prec_gt_0 prec) in H1. change (Prec_lt_emax prec emax) in H2. cbn zeta.
  assert (length perm = length pts) as HLp by (rewrite HP; apply seq_length).
  pose proof (C01_index_over_any_number_of_values _ (ile prec emax DIM) (i_join prec emax DIM) (i_empty prec emax DIM) _ 64 codes perm T (ibox_join prec emax DIM) ltac:(lia) ltac:(congruence) Hn HS HB) as HI.
  set (near := fun a b => SFleb _ eps). set (pv := fun (a : nat) (v : ibox prec emax DIM) => intersects_sb _ _ eps _).
  assert (forall a, PruneSafe (ile prec emax DIM) (fun i => as_ibox prec emax DIM (point_box (point_at DIM pts i))) (near a) (pv a)) as Hps.
  { intros a. apply (safe_within prec emax DIM pts (point_at DIM pts a) eps); [done|by apply point_at_finite|done]. }
  pose proof (fun a => point_at_finite prec emax DIM pts a Hpts) as Hf.
  assert (forall a b, near a b = near b a) as Hs.
  { intros a b. unfold near. destruct (C67_distances prec emax DIM H1 H2 _ _ (Hf a) (Hf b)) as [(_ & _ & E & _) _]. cbn zeta in E. by rewrite E. }
  assert (forall a, near a a = true) as Hr.
  { intros a. unfold near. destruct (C67_distances prec emax DIM H1 H2 _ _ (Hf a) (Hf a)) as [(N1 & _ & _ & N2) _]. rewrite (eqb_V prec emax) in N2 by done.
    rewrite (leb_V prec emax) in He0 |- * by done. rewrite N2. done. }
  destruct (counts_exist _ (ile prec emax DIM) _ (length pts) perm T near pv minpts HI HP Hps) as (counts & HC).
  destruct (C09_half_traversal_pairs_once _ (ile prec emax DIM) _ perm T near pv HI) as (outs & HF & _); [rewrite HP; apply NoDup_seq|done|done|].
  exists counts, outs. split; [done|]. split; [done|]. split.
  - eapply (fdbscan_ok _ (ile prec emax DIM) _ (length pts) perm T near pv minpts false); eauto.
  - eapply (fdbscan_ok _ (ile prec emax DIM) _ (length pts) perm T near pv minpts true); eauto.
Qed.
Print Assumptions C68_dbscan.

(** ** C69: HDBSCAN in single precision *)
(** Coordinates of at most 2^61 in magnitude, in at most 3 dimensions: distances do not overflow. *)
Theorem C69_no_overflow : forall p q, length p = length q -> length p <= 3 ->
  Forall (fun x => ieee_finite 24 128 x = true /\ SFleb (SFabs x) (f32 1 61) = true) p -> Forall (fun x => ieee_finite 24 128 x = true /\ SFleb (SFabs x) (f32 1 61) = true) q ->
  SFltb (distance_pp F32 p q) (S754_infinity false) = true.
Proof.
  intros p q HL H3 Hp Hq. assert (Hprec : FLX.Prec_gt_0 24) by done. assert (Hmax : Prec_lt_emax 24 128) by done.
  assert (forall l, Forall (fun x => ieee_finite 24 128 x = true /\ SFleb (SFabs x) (f32 1 61) = true) l ->
    finite_point 24 128 (length l) l /\ Forall (fun x => (Rabs (IeeeBoxProof.val 24 128 x) <= bpow radix2 61)%R) (lift 24 128 l)) as Hl.
  { induction 1 as [|x l [Hx1 Hx2] Hl [[_ IH1] IH2]]; [split; [split; [done|constructor]|constructor]|]. split; [split; [done|by constructor]|]. cbn. constructor; [|done]. unfold IeeeBoxProof.val.
    rewrite raw_as by (by apply finite_number). assert (ieee_number 24 128 (SFabs x) = true) as Hn.
    { apply (finite_number 24 128) in Hx1. unfold ieee_number in *. destruct x; done. }
    apply (leb_V 24 128) in Hx2; [|done|done]. assert (V 128 (f32 1 61) = bpow radix2 61) as E.
    { replace (f32 1 61) with (S754_finite false 8388608 38) by (vm_compute; reflexivity). unfold V, SF2R, F2R. cbn [cond_Zopp Fnum Fexp].
      replace (IZR 8388608) with (bpow radix2 23) by (rewrite <- IZR_Zpower by discriminate; reflexivity). rewrite <- bpow_plus. reflexivity. }
    rewrite E in Hx2. eapply Rle_trans; [|exact Hx2]. right. destruct x as [| | |s m e]; try done.
    - simpl. apply Rabs_R0.
    - simpl. rewrite <- F2R_Zabs. by destruct s. }
  destruct (Hl p Hp) as [P1 P2]. destruct (Hl q Hq) as [Q1 Q2]. rewrite <- HL in Q1.
  pose proof (no_nan_pp 24 128 (length p) p q P1 Q1) as E. fold F32 in E. rewrite <- E.
  apply (ltb_V 24 128); [apply raw_number|done|]. change (V 128 (S754_infinity false)) with (bpow radix2 128).
  apply (distance_fin 24 128 61); [done|unfold lift; by rewrite !map_length|unfold lift; rewrite map_length; lia|done|done].
Qed.
Print Assumptions C69_no_overflow.

(** Distances as the numbers of sign + on which C65 works; a distance always is one (C67_distances). *)
Definition as_f32n (x : spec_float) : f32n := match bool_dec (f32_nonneg x) true with left H => exist _ x H | right _ => f32n_zero end.
Lemma f32n_raw x : ieee_number 24 128 x = true -> sign_SF x = false -> proj1_sig (as_f32n x) = x.
Proof. intros H1 H2. unfold as_f32n. destruct (bool_dec _ _) as [|Hne]; [done|]. exfalso. apply Hne. unfold ieee_number in H1. destruct x as [[]|[]| |[] m e]; try done. simpl in H1. by rewrite andb_true_r in H1. Qed.
Lemma f32n_SW : StrictWeak f32n_lt.
Proof. destruct C65_float_bits as [_ B]. constructor; intros *; rewrite !B, ?Z.ltb_irrefl, ?Z.ltb_lt, ?Z.ltb_ge; lia. Qed.

(** Points with finite coordinates whose computed distances are finite: whatever schedule built the tree, hdbscan returns, for every
    interleaving, a single-linkage dendrogram for the computed mutual reachability distances, by both implementations. *)
Theorem C69_hdbscan : forall DIM pts codes perm T H cap,
  Forall (finite_point 24 128 DIM) pts -> (forall p q, p ∈ pts -> q ∈ pts -> SFltb (distance_pp F32 p q) (S754_infinity false) = true) ->
  2 <= length pts -> (N.of_nat (length pts) <= 2 ^ 30)%N -> perm ≡ₚ seq 0 (length pts) -> length codes = length pts -> SortedCodes 64 codes ->
  float_tree 24 128 DIM (fun i => point_box (point_at DIM pts i)) codes perm T -> HeightLe T (getRoot T) H -> H <= cap ->
  let dl a b := as_f32n (distance_pp F32 (point_at DIM pts a) (point_at DIM pts b)) in
  let dv a v := as_f32n (distance_pb F32 (point_at DIM pts a) (raw_box 24 128 DIM v)) in
  forall k, exists reach : nat -> nat -> f32n,
  (k <= 1 -> forall a b, reach a b = dl a b) /\
  (1 < k -> exists core, (forall a, a < length pts -> KthDistance f32n_lt (dl a) (length pts) (min k (length pts)) (core a)) /\
    forall a b, Greatest f32n_lt (core a) (core b) (dl a b) (reach a b)) /\
  forall shared bounded order par0 garbage edges0,
  order ≡ₚ seq 0 (2 * (length pts - 1)) -> length par0 = 2 * length pts - 1 -> length garbage = length pts - 1 -> length edges0 = length pts - 1 ->
  hdbscan_union_find T f32n_lt f32n_zero f32n_inf dl dv cap shared bounded k (Nat.log2 (length pts)) order par0 garbage edges0 (Dendrogram f32n_lt (length pts) reach) /\
  forall map0 sided0 parents0, length map0 = length pts -> length sided0 = length pts - 1 -> length parents0 = 2 * length pts - 1 ->
  hdbscan_boruvka T f32n_lt f32n_zero f32n_inf dl dv cap (fun x => f32_bits (proj1_sig x)) shared bounded k (Nat.log2 (length pts)) order par0 garbage edges0 map0 sided0 parents0 (Dendrogram f32n_lt (length pts) reach).
Proof.
  intros DIM pts codes perm T H cap Hpts Hdist H2 H30 HP HL HS HB HH HC dl dv k. assert (Hprec : FLX.Prec_gt_0 24) by done. assert (Hmax : Prec_lt_emax 24 128) by done.
  assert (length perm = length pts) as HLp by (rewrite HP; apply seq_length). pose proof (fun a => point_at_finite 24 128 DIM pts a Hpts) as Hf.
  assert (Z.of_nat (length codes) <= 2 ^ 63)%Z as Hn by (rewrite HL; clear -H30; change (2 ^ 63)%Z with 9223372036854775808%Z; change (2 ^ 30)%N with 1073741824%N in H30; lia).
  pose proof (C01_index_over_any_number_of_values _ (ile 24 128 DIM) (i_join 24 128 DIM) (i_empty 24 128 DIM) _ 64 codes perm T (ibox_join 24 128 DIM) ltac:(lia) ltac:(congruence) Hn HS HB) as HI.
  assert (ValidTree (ile 24 128 DIM) (fun i => as_ibox 24 128 DIM (point_box (point_at DIM pts i))) perm T) as VT by (destruct HI as [[HI _]|[_ HI]]; [lia|done]).
  assert (forall a b, proj1_sig (dl a b) = distance_pp F32 (point_at DIM pts a) (point_at DIM pts b)) as Edl.
  { intros a b. apply f32n_raw; [by apply (num_pp 24 128 DIM)|]. by apply (C67_distances 24 128 DIM Hprec Hmax). }
  assert (HdbscanInput (ile 24 128 DIM) (fun i => as_ibox 24 128 DIM (point_box (point_at DIM pts i))) perm T f32n_lt f32n_zero f32n_inf dl dv cap H) as HI'.
  { constructor; try done; [by rewrite HLp|by rewrite HLp|by rewrite HLp|apply f32n_SW|..].
    - intros a Ha o v Hle. unfold f32n_lt. rewrite Edl. unfold dv. rewrite f32n_raw.
      + apply (point_node 24 128 DIM); [done|done|]. unfold ile in Hle. by rewrite (leaf_box 24 128 DIM) in Hle by (by apply point_finite_box).
      + by apply (num_pb 24 128 DIM).
      + pose proof (no_nan_pb 24 128 DIM (point_at DIM pts a) v (Hf a)) as E. fold F32 in E. rewrite <- E. unfold distance_pb. apply (distance_sign 24 128).
    - intros a b Ha Hb. rewrite HLp in Ha, Hb. split; [unfold dl; f_equal; by apply (C67_distances 24 128 DIM Hprec Hmax)|]. unfold f32n_lt. rewrite Edl. split.
      + destruct (C67_distances 24 128 DIM Hprec Hmax _ _ (Hf a) (Hf b)) as [(N1 & N2 & _) _]. cbn zeta in N1, N2. fold F32 in N1, N2. by destruct (distance_pp F32 (point_at DIM pts a) (point_at DIM pts b)) as [[]|[]| |[] ? ?].
      + apply Hdist; unfold point_at; apply elem_of_list_In, nth_In; done. }
  destruct (C66_hdbscan _ _ (ile 24 128 DIM) _ perm T f32n_lt f32n_zero f32n_inf dl dv cap H HI' k) as (reach & R1 & R2 & R3). rewrite HLp in R2, R3. exists reach. split; [done|]. split; [done|].
  intros shared bounded order par0 garbage edges0 HO HPa HG HE. destruct (R3 shared bounded order par0 garbage edges0 HO HPa HG HE) as [U1 U2]. split; [done|].
  intros map0 sided0 parents0 HM HSd HD. destruct C65_float_bits as [B1 B2]. apply U2; try done; intros; (apply B1 || apply B2); done.
Qed.
Print Assumptions C69_hdbscan.

(** ** Concrete cases: five points of the plane in single precision; the differences, squares and distances of some of them overflow *)
Definition ieee_pts : list (list spec_float) := [[f32 0 0; f32 0 0]; [f32 3 0; f32 4 0]; [f32 1 100; f32 0 0]; [f32 (-3) 126; f32 (-7) (-149)]; [f32 1 0; f32 1 0]].
Definition ieee_codes : list Z := [0; 3; 3; 9; 12]%Z.
Definition ieee_perm : list nat := [3; 0; 4; 1; 2].
Definition ieee_tree : tree (ibox 24 128 2) :=
  default empty_tree (build_seq (i_join 24 128 2) (i_empty 24 128 2) (fun i => as_ibox 24 128 2 (point_box (point_at 2 ieee_pts i))) 64 ieee_codes ieee_perm).
Lemma default_built {A} (o : option A) d : (if o then true else false) = true -> o = Some (default d o).
Proof. by destruct o. Qed.
Example C67_example_hypotheses : Forall (finite_point 24 128 2) ieee_pts /\ ieee_perm ≡ₚ seq 0 5 /\ SortedCodes 64 ieee_codes /\
  float_tree 24 128 2 (fun i => point_box (point_at 2 ieee_pts i)) ieee_codes ieee_perm ieee_tree.
Proof.
  split; [repeat constructor|]. split; [apply (bool_decide_unpack _); vm_compute; reflexivity|]. split; [apply sorted_codesb_ok; vm_compute; reflexivity|].
  apply build_seq_built; [simpl; lia|]. apply default_built. vm_compute. reflexivity.
Qed.
(** The distance of points 0 and 2 overflows: infinite, so it is within the radius inf but within no finite one. *)
Example C67_example :
  let c := [f32 0 0; f32 1 (-2)] in let r := f32 5 0 in
  distance_pp F32 c (point_at 2 ieee_pts 2) = S754_infinity false /\
  spatial_query ieee_tree (fun i => intersects_sp F32 c r (point_at 2 ieee_pts i)) (fun v => intersects_sb F32 c r (raw_box 24 128 2 v)) (fun out v => (out ++ [v], false)) [] = Ok [0; 4; 1] /\
  spatial_query ieee_tree (fun i => intersects_sp F32 c (S754_infinity false) (point_at 2 ieee_pts i)) (fun v => intersects_sb F32 c (S754_infinity false) (raw_box 24 128 2 v)) (fun out v => (out ++ [v], false)) [] = Ok [3; 0; 4; 1; 2] /\
  nearest_query ieee_tree (o_ltb (NumOps 24 128)) (o_zero (NumOps 24 128)) (inf_num 24 128) (fun i => as_num 24 128 (distance_pp F32 c (point_at 2 ieee_pts i)))
    (fun v => as_num 24 128 (distance_pb F32 c (raw_box 24 128 2 v))) 2 64 = Ok [0; 4].
Proof. vm_compute. split; [reflexivity|]. split; [reflexivity|]. split; reflexivity. Qed.
Example C67_example_boxes : finite_box 24 128 2 [(f32 (-3) 126, f32 1 0); (f32 0 0, f32 1 (-149))] /\
  distance_pb F32 [f32 1 100; f32 0 0] [(f32 (-3) 126, f32 1 0); (f32 0 0, f32 1 (-149))] = S754_infinity false.
Proof. split; [split; [reflexivity|repeat constructor]|]. vm_compute. reflexivity. Qed.
Example C68_example : ieee_number 24 128 (f32 5 0) = true /\ SFleb (S754_zero false) (f32 5 0) = true /\
  (fun i => map (fun j => SFleb (distance_pp F32 (point_at 2 ieee_pts i) (point_at 2 ieee_pts j)) (f32 5 0)) (seq 0 5)) <$> [0; 2] = [[true; true; false; false; true]; [false; false; true; false; false]].
Proof. vm_compute. done. Qed.
Definition small_pts : list (list spec_float) := [[f32 0 0; f32 0 0]; [f32 3 0; f32 4 0]; [f32 1 61; f32 (-1) 61]; [f32 (-3) 20; f32 (-7) (-149)]; [f32 1 0; f32 1 0]].
Definition small_tree : tree (ibox 24 128 2) :=
  default empty_tree (build_seq (i_join 24 128 2) (i_empty 24 128 2) (fun i => as_ibox 24 128 2 (point_box (point_at 2 small_pts i))) 64 ieee_codes ieee_perm).
Example C69_example : Forall (finite_point 24 128 2) small_pts /\ (forall p q, p ∈ small_pts -> q ∈ small_pts -> SFltb (distance_pp F32 p q) (S754_infinity false) = true) /\
  float_tree 24 128 2 (fun i => point_box (point_at 2 small_pts i)) ieee_codes ieee_perm small_tree /\ HeightLe small_tree (getRoot small_tree) 4.
Proof.
  assert (Forall (finite_point 24 128 2) small_pts) as HF by (repeat constructor).
  assert (float_tree 24 128 2 (fun i => point_box (point_at 2 small_pts i)) ieee_codes ieee_perm small_tree) as HT by (apply build_seq_built; [simpl; lia|]; apply default_built; vm_compute; reflexivity).
  split; [done|]. split; [|split; [done|]].
  - intros p q Hp Hq. assert (forall p, p ∈ small_pts -> length p = 2 /\ Forall (fun x => ieee_finite 24 128 x = true /\ SFleb (SFabs x) (f32 1 61) = true) p) as Hs.
    { apply Forall_forall. repeat constructor. }
    destruct (Hs p Hp) as [L1 F1], (Hs q Hq) as [L2 F2]. apply C69_no_overflow; [congruence|lia|done|done].
  - assert (Hprec : FLX.Prec_gt_0 24) by done. assert (Hmax : Prec_lt_emax 24 128) by done.
    pose proof (C01_index_over_any_number_of_values _ (ile 24 128 2) (i_join 24 128 2) (i_empty 24 128 2) _ 64 ieee_codes ieee_perm small_tree (ibox_join 24 128 2) ltac:(simpl; lia) eq_refl ltac:(simpl; lia) ltac:(apply sorted_codesb_ok; vm_compute; reflexivity) HT) as [[H _]|[_ VT]]; [simpl in H; lia|].
    apply (height_size _ _ ieee_perm small_tree VT 5 _ 0 4 None); [lia|]. apply VT.
Qed.
Example C69_example_core :
  core_distances small_tree f32n_lt f32n_zero f32n_inf (fun a b => as_f32n (distance_pp F32 (point_at 2 small_pts a) (point_at 2 small_pts b)))
    (fun a v => as_f32n (distance_pb F32 (point_at 2 small_pts a) (raw_box 24 128 2 v))) 64 2 = Some (as_f32n <$> [o_sqrt F32 (f32 2 0); o_sqrt F32 (f32 13 0); f32 11863283 38; f32 3 20; o_sqrt F32 (f32 2 0)]).
Proof. vm_compute. reflexivity. Qed.
