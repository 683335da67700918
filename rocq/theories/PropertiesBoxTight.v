(** C37, converse direction: the computed distances are attained, so the tests accept nothing needlessly. *)
From stdpp Require Import list.
From Coq Require Import QArith Lqa.
From Verif Require Import HeapSpec GeomOps BoxModel BoxSpec PropertiesBox.
Local Open Scope Q_scope.

(** Every monotone rounding: the computed distance to a box is the computed distance to a point of the box, the sphere
    meets the box exactly when it meets a point of it, and the distance to the sphere is never negative and is zero when
    they meet. *)
Theorem C37_attained : forall rnd sq, Rounding rnd sq -> forall p r b, length p = length b -> BoxSpec.Proper Qltb b ->
  (exists v, InBox Qltb v b /\ distance_pp (RndOps rnd sq) p v = distance_pb (RndOps rnd sq) p b) /\
  (intersects_sb (RndOps rnd sq) p r b = true <-> exists v, InBox Qltb v b /\ intersects_sp (RndOps rnd sq) p r v = true) /\
  0 <= distance_sb (RndOps rnd sq) p r b /\
  (intersects_sb (RndOps rnd sq) p r b = true -> distance_sb (RndOps rnd sq) p r b == 0).
Proof.
  intros rnd sq HR p r b HL Hb. pose proof (closest_in rnd sq (rd_mono _ _ HR) p b HL Hb) as Hin. split; [|split; [|split]].
  - exists (closest_box (RndOps rnd sq) p b). done.
  - split; [intros H; by exists (closest_box (RndOps rnd sq) p b)|]. intros (v & Hv & H).
    apply (proj1 (C37_sphere_box rnd sq HR p r b) v); [|done|done]. rewrite HL. symmetry. by apply Forall2_length in Hv.
  - unfold distance_sb, kmax. cbn [o_ltb o_zero RndOps]. match goal with |- context [Qltb ?x ?y] => destruct (Qltb x y) eqn:E end; rewrite ?Qltb_lt, ?Qltb_ge in E; lra.
  - unfold intersects_sb, distance_sb, kmax. cbn [o_leb o_ltb o_zero o_sub RndOps]. rewrite Qle_bool_iff. intros H.
    generalize dependent (distance_pb (RndOps rnd sq) p b). intros d H.
    assert (rnd (d - r) <= 0) by (pose proof (rd_zero _ _ HR); assert (rnd (d - r) <= rnd 0) by (apply HR; lra); lra).
    destruct (Qltb (rnd (d - r)) 0) eqn:E; rewrite ?Qltb_lt, ?Qltb_ge in E; lra.
Qed.
Print Assumptions C37_attained.

(** Exact arithmetic: the distance of a sphere and a box is the distance to the centre less the radius, or zero. *)
Theorem C37_sphere_box_exact : forall sq p r b,
  let d := distance_pb (RndOps (fun x => x) sq) p b in let e := distance_sb (RndOps (fun x => x) sq) p r b in
  (d <= r -> e == 0) /\ (r <= d -> e == d - r) /\ (e == 0 <-> intersects_sb (RndOps (fun x => x) sq) p r b = true).
Proof.
  intros sq p r b. cbv zeta. unfold intersects_sb, distance_sb, kmax. cbn [o_leb o_ltb o_zero o_sub RndOps]. rewrite Qle_bool_iff.
  generalize (distance_pb (RndOps (fun x => x) sq) p b). intros d.
  destruct (Qltb (d - r) 0) eqn:E; rewrite ?Qltb_lt, ?Qltb_ge in E; (split; [intros; lra|split; [intros; lra|split; intros; lra]]).
Qed.
Print Assumptions C37_sphere_box_exact.

(** Boxes that pass the overlap test have a common point (order only). *)
Theorem C37_overlap_exact : forall T (O : Ops T), StrictWeak (o_ltb O) -> forall a b, length a = length b ->
  BoxSpec.Proper (o_ltb O) a -> BoxSpec.Proper (o_ltb O) b ->
  intersects_bb O a b = true <-> exists v, InBox (o_ltb O) v a /\ InBox (o_ltb O) v b.
Proof.
  intros T O SW a b HL Ha Hb. split.
  - revert b HL Hb. induction Ha as [|[a1 a2] a Ha0 Ha IH]; intros [|[b1 b2] b] HL Hb; try done; [exists []; split; constructor|].
    apply Forall_cons in Hb as [Hb0 Hb]. unfold intersects_bb. cbn [zip zip_with forallb]. rewrite andb_true_iff, negb_true_iff, orb_false_iff. intros [[H1 H2] H].
    destruct (IH b ltac:(by injection HL) Hb H) as (v & Hv1 & Hv2). cbn [fst snd] in *.
    exists (kmax O a1 b1 :: v). split; (constructor; [|done]); cbn [fst snd]; (split; [first [apply (kmax_l O SW)|apply (kmax_r O SW)]|apply (kmax_lub O); done]).
  - intros (v & Hv1 & Hv2). apply (proj1 (proj2 (C37_overlap T O SW a b b (BoxIn_refl O SW b))) v); done.
Qed.
Print Assumptions C37_overlap_exact.

(** Exact arithmetic: the (squared) distance of two boxes is the least one of their points. *)
Definition gap2 (a b : Q * Q) : Q := match gap (RndOps (fun x => x) (fun x => x)) a b with Some d => d * d | None => 0 end.
Lemma gap2_attained a b : a.1 <= a.2 -> b.1 <= b.2 -> exists x y, (a.1 <= x /\ x <= a.2) /\ (b.1 <= y /\ y <= b.2) /\ gap2 a b == (y - x) * (y - x).
Proof.
  intros Ha Hb. unfold gap2, gap. cbn [o_ltb o_sub RndOps]. destruct (Qltb b.2 a.1) eqn:E1; rewrite ?Qltb_lt, ?Qltb_ge in E1.
  - exists a.1, b.2. split; [lra|]. split; [lra|]. ring.
  - destruct (Qltb a.2 b.1) eqn:E2; rewrite ?Qltb_lt, ?Qltb_ge in E2; [exists a.2, b.1; split; [lra|]; split; [lra|]; ring|].
    destruct (Qlt_le_dec a.1 b.1); [exists b.1, b.1|exists a.1, a.1]; (split; [lra|]; split; [lra|]; ring).
Qed.
Lemma gap2_least a b x y : a.1 <= x -> x <= a.2 -> b.1 <= y -> y <= b.2 -> gap2 a b <= (y - x) * (y - x).
Proof.
  intros. unfold gap2, gap. cbn [o_ltb o_sub RndOps]. destruct (Qltb b.2 a.1) eqn:E1; rewrite ?Qltb_lt, ?Qltb_ge in E1.
  - assert (0 <= (x - y - (a.1 - b.2)) * (x - y + (a.1 - b.2))) by (apply Qmult_le_0_compat; lra). lra.
  - destruct (Qltb a.2 b.1) eqn:E2; rewrite ?Qltb_lt, ?Qltb_ge in E2; [|apply Qsq_nonneg].
    assert (0 <= (y - x - (b.1 - a.2)) * (y - x + (b.1 - a.2))) by (apply Qmult_le_0_compat; lra). lra.
Qed.
Lemma bb_foldl (l : list (option Q)) : forall s, foldl (fun s g => match g with Some d => s + d * d | None => s end) s l ==
  s + foldr Qplus 0 (map (fun g => match g with Some d => d * d | None => 0 end) l).
Proof. induction l as [|[d|] l IH]; intros s; simpl; [ring|rewrite IH; ring|rewrite IH; ring]. Qed.
Lemma bb_gap2 a b : distance_bb (RndOps (fun x => x) (fun x => x)) a b == foldr Qplus 0 (zip_with gap2 a b).
Proof.
  unfold distance_bb. cbn [o_sqrt o_add o_mul o_zero RndOps]. rewrite bb_foldl, Qplus_0_l. revert b.
  induction a as [|x a IH]; intros [|y b]; simpl; try reflexivity. rewrite IH. reflexivity.
Qed.
Theorem C37_box_box_exact : forall a b, length a = length b -> BoxSpec.Proper Qltb a -> BoxSpec.Proper Qltb b ->
  (exists u v, InBox Qltb u a /\ InBox Qltb v b /\ distance_bb (RndOps (fun x => x) (fun x => x)) a b == dist2 u v) /\
  (forall u v, InBox Qltb u a -> InBox Qltb v b -> distance_bb (RndOps (fun x => x) (fun x => x)) a b <= dist2 u v).
Proof.
  intros a b HL Ha Hb. split.
  - assert (exists u v, InBox Qltb u a /\ InBox Qltb v b /\ foldr Qplus 0 (zip_with gap2 a b) == dist2 u v) as (u & v & ? & ? & E).
    { revert b HL Hb. induction Ha as [|x a Hx Ha IH]; intros [|y b] HL Hb; try done; [exists [], []; repeat split; constructor|].
      apply Forall_cons in Hb as [Hy Hb]. destruct (IH b ltac:(by injection HL) Hb) as (u & v & Hu & Hv & E).
      apply Qltb_ge in Hx, Hy. destruct (gap2_attained x y Hx Hy) as (s & t & [? ?] & [? ?] & Eg).
      exists (s :: u), (t :: v). split; [constructor; [|done]; rewrite !Qltb_ge; lra|]. split; [constructor; [|done]; rewrite !Qltb_ge; lra|].
      unfold dist2 in *. cbn [zip_with foldr]. rewrite E, Eg. ring. }
    exists u, v. split; [done|]. split; [done|]. by rewrite bb_gap2.
  - intros u v Hu Hv. rewrite bb_gap2. clear Ha Hb. revert b v HL Hv. induction Hu as [|s x u a [H1 H2] Hu IH]; intros [|y b] v HL Hv; try done.
    inversion Hv as [|t ? v' ? [H3 H4] Hv']; subst. specialize (IH b v' ltac:(by injection HL) Hv'). apply Qltb_ge in H1, H2, H3, H4.
      pose proof (gap2_least x y s t H1 H2 H3 H4) as Hg. unfold dist2 in *. cbn [zip_with foldr].
      assert ((s - t) * (s - t) == (t - s) * (t - s)) as -> by ring. by apply Qplus_le_compat.
Qed.
Print Assumptions C37_box_box_exact.

(** A sphere inside the reach of the box and one outside; two boxes apart on one axis only. *)
Example C37_tight_example :
  let p := [0; 3 # 10] in let b := [(1, 2); (0, 1)] in
  BoxSpec.Proper Qltb b /\ intersects_sb (RndOps floor4 (fun x => x)) p (3 # 2) b = true /\ distance_sb (RndOps floor4 (fun x => x)) p (3 # 2) b == 0 /\
  intersects_sb (RndOps floor4 (fun x => x)) p (1 # 2) b = false /\ distance_sb (RndOps floor4 (fun x => x)) p (1 # 2) b == 1 # 2 /\
  intersects_bb QOps [(0, 1); (0, 1)] b = true /\ intersects_bb QOps [(0, 1 # 2); (0, 1)] b = false /\
  distance_bb (RndOps (fun x => x) (fun x => x)) [(0, 1 # 2); (0, 1)] b == 1 # 4.
Proof. vm_compute. split; [repeat constructor|]. repeat split. Qed.
