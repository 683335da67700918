(** C70, C71, C72: building the search tree from floating-point coordinates: bounding box of the scene, centroids, scaling to the unit
    cube, Morton codes, sorting; then C01 and C67. *)
From Coq Require Import Reals SpecFloat.
From Flocq Require Import Core IEEE754.BinarySingleNaN.
From Verif Require Import Base HeapSpec TreeSpec TraversalSpec GeomOps BoxModel BoxSpec MortonFloatModel BuildFloatModel IeeeSpec IeeeModel IeeeProof BuildFloatProof BuildFloatTreeProof.
From Verif Require Import TraversalModel DbscanModel DbscanSpec PropertiesBox PropertiesTraversal PropertiesDbscan PropertiesIeee.
From Coq Require Import Lra.
Local Open Scope nat_scope.

(** What sorting yields (src/spatial/ArborX_LinearBVH.hpp:240-243): the permutation, and the codes in its order, ascending. *)
Definition sorted_by (codes : list Z) (perm : list nat) (sorted : list Z) : Prop :=
  perm ≡ₚ seq 0 (length codes) /\ Forall2 (fun i z => codes !! i = Some z) perm sorted /\ forall i a b, sorted !! i = Some a -> sorted !! S i = Some b -> (a <= b)%Z.
(** No difference of two opposite corners overflows. *)
Definition extents_finite (f : fmt) (scene : list (spec_float * spec_float)) : Prop :=
  Forall (fun c => ieee_finite (f_prec f) (f_emax f) (SFsub (f_prec f) (f_emax f) c.2 c.1) = true) scene.

Section Fmt.
Context (f : fmt) (Hf2 : f = binary32 \/ f = binary64).
#[local] Instance fmt_ok' : OkFmt f := fmt_ok f Hf2.
Notation fin_pt := (finite_point (f_prec f) (f_emax f)).
Notation fin_bx := (finite_box (f_prec f) (f_emax f)).

Lemma finite_points_boxes DIM pts : Forall (fin_pt DIM) pts -> Forall (fin_box f DIM) (map point_box pts).
Proof.
  intros H. apply Forall_map. eapply Forall_impl; [exact H|]. intros p [HL HF]. split; [unfold point_box; by rewrite map_length|]. apply Forall_map. eapply Forall_impl; [exact HF|]. intros x Hx. cbn. split; [done|]. split; [done|].
  apply (ltb_V_false (f_prec f) (f_emax f)); [by apply finite_number..|]. lra.
Qed.
Lemma points_scene DIM pts t scene : Forall (fin_pt DIM) pts -> pts <> [] -> (forall i, i < length pts -> i ∈ red_values t) -> scene_box f DIM (map point_box pts) t = Some scene ->
  Extents f DIM scene /\ forall d c, scene !! d = Some c -> exists q x, q ∈ pts /\ q !! d = Some x /\ ieee_finite (f_prec f) (f_emax f) x = true /\ Vf f x = Vf f c.2.
Proof.
  intros HP Hne Ht Hs. destruct (scene_ok f DIM (map point_box pts) t scene) as [HL HE]; [by apply finite_points_boxes|by destruct pts|intros i; rewrite map_length; apply Ht|done|].
  split; [split; [done|intros d c Hc; exact (proj1 (HE d c Hc))]|]. intros d c Hc. destruct (HE d c Hc) as (_ & _ & q & e & Hq & He & HV). apply elem_of_list_fmap in Hq as (p & -> & Hp).
  unfold point_box in He. rewrite list_lookup_fmap in He. apply fmap_Some in He as (x & Hx & ->). exists p, x. split; [done|]. split; [done|]. split; [|done]. rewrite Forall_forall in HP. destruct (HP p Hp) as [_ HF]. rewrite Forall_lookup in HF. by apply (HF d).
Qed.
Lemma points_numbers DIM pts : Forall (fin_pt DIM) pts -> Forall (fun c => length c = DIM /\ Forall (fun x => ieee_number (f_prec f) (f_emax f) x = true) c) pts.
Proof. intros H. eapply Forall_impl; [exact H|]. intros p [HL HF]. split; [done|]. eapply Forall_impl; [exact HF|]. intros x. apply finite_number. Qed.
Lemma boxes_numbers DIM bxs : Forall (fin_bx DIM) bxs -> Forall (fun c => length c = DIM /\ Forall (fun x => ieee_number (f_prec f) (f_emax f) x = true) c) (map (centroid_box f) bxs).
Proof.
  intros H. apply Forall_map. eapply Forall_impl; [exact H|]. intros b [HL HF]. split; [unfold centroid_box; by rewrite map_length|]. apply Forall_map. eapply Forall_impl; [exact HF|]. intros c (H1 & H2 & _). by apply (half_number f Hf2).
Qed.
Lemma sorted_codes codes perm sorted : Forall (fun z => (0 <= z < 2 ^ 63)%Z) codes -> sorted_by codes perm sorted -> SortedCodes 64 sorted /\ length sorted = length codes.
Proof.
  intros HC (HP & HF & HS). split; [constructor; [exact HS|]|].
  - intros i a Ha. destruct (Forall2_lookup_r _ _ _ _ _ HF Ha) as (k & _ & Hk). rewrite Forall_lookup in HC. by apply (HC k).
  - rewrite <- (Forall2_length _ _ _ HF), HP. apply seq_length.
Qed.
End Fmt.
Lemma fmt_params f : f = binary32 \/ f = binary64 -> (0 < f_prec f)%Z /\ (f_prec f < f_emax f)%Z.
Proof. by intros [-> | ->]. Qed.

(** ** C70: from coordinates to the tree *)
(** The codes of finite points are defined exactly if no extent of the bounding box of the scene overflows. *)
Theorem C70_codes : forall f DIM pts t scene, f = binary32 \/ f = binary64 -> 2 <= DIM <= 10 -> Forall (finite_point (f_prec f) (f_emax f) DIM) pts -> pts <> [] ->
  (forall i, i < length pts -> i ∈ red_values t) -> scene_box f DIM (map point_box pts) t = Some scene ->
  (exists codes, codes64 f DIM scene pts = Some codes) <-> extents_finite f scene.
Proof.
  intros f DIM pts t scene Hf HD HP Hne Ht Hs. destruct (points_scene f Hf DIM pts t scene HP Hne Ht Hs) as [HE HA]. split.
  - intros [codes Hc]. apply Forall_lookup. intros d c Hd. destruct (HA d c Hd) as (q & x & Hq & Hx & Hfx & HV). apply not_false_iff_true. intros Hinf.
    by rewrite (codes_none f Hf DIM scene pts d c q x) in Hc.
  - intros HF. destruct (codes_some f Hf DIM scene pts HD HE HF) as (codes & E & _); [by apply points_numbers|]. by exists codes.
Qed.
Print Assumptions C70_codes.

(** The codes follow the order of the coordinates, and leave the top bit clear. *)
Theorem C70_order : forall f DIM pts t scene codes, f = binary32 \/ f = binary64 -> 2 <= DIM <= 10 -> Forall (finite_point (f_prec f) (f_emax f) DIM) pts -> pts <> [] ->
  (forall i, i < length pts -> i ∈ red_values t) -> scene_box f DIM (map point_box pts) t = Some scene -> codes64 f DIM scene pts = Some codes ->
  length codes = length pts /\ (forall i z, codes !! i = Some z -> (0 <= z < 2 ^ 63)%Z) /\
  forall i j p q z z', pts !! i = Some p -> pts !! j = Some q -> (forall d x y, p !! d = Some x -> q !! d = Some y -> SFleb x y = true) ->
    codes !! i = Some z -> codes !! j = Some z' -> (z <= z')%Z.
Proof.
  intros f DIM pts t scene codes Hf HD HP Hne Ht Hs Hc. destruct (points_scene f Hf DIM pts t scene HP Hne Ht Hs) as [HE _].
  assert (extents_finite f scene) as HF by exact (proj1 (C70_codes f DIM pts t scene Hf HD HP Hne Ht Hs) (ex_intro _ codes Hc)). pose proof (points_numbers f DIM pts HP) as HN.
  destruct (codes_some f Hf DIM scene pts HD HE HF HN) as (codes' & E & HL & HR). rewrite Hc in E. injection E as <-. split; [done|]. split; [by apply Forall_lookup|].
  intros i j p q z z' Hp Hq Hle Hz Hz'. unfold codes64 in Hc. apply mapM_Some_1 in Hc. rewrite Forall_lookup in HN. destruct (HN i p Hp), (HN j q Hq).
  pose proof (Forall2_lookup_lr _ _ _ _ _ _ Hc Hp Hz) as E1. pose proof (Forall2_lookup_lr _ _ _ _ _ _ Hc Hq Hz') as E2. by apply (code_mono f Hf DIM scene p q).
Qed.
Print Assumptions C70_order.

(** From finite points without overflowing extents, in either precision: the codes are defined, and for every order the sort may leave and
    every schedule that builds the tree, queries for the points within a distance and for the nearest points are right. *)
Theorem C70_points : forall f DIM pts t scene, f = binary32 \/ f = binary64 -> 2 <= DIM <= 10 -> Forall (finite_point (f_prec f) (f_emax f) DIM) pts -> pts <> [] ->
  (Z.of_nat (length pts) <= 2 ^ 63)%Z -> (forall i, i < length pts -> i ∈ red_values t) -> scene_box f DIM (map point_box pts) t = Some scene -> extents_finite f scene ->
  exists codes, codes64 f DIM scene pts = Some codes /\
  forall perm sorted T, sorted_by codes perm sorted -> float_tree (f_prec f) (f_emax f) DIM (fun i => point_box (point_at DIM pts i)) sorted perm T ->
  SortedCodes 64 sorted /\ length sorted = length pts /\ perm ≡ₚ seq 0 (length pts) /\
  forall c, finite_point (f_prec f) (f_emax f) DIM c ->
  let F := FloatOps (f_prec f) (f_emax f) in let N := NumOps (f_prec f) (f_emax f) in
  (forall r, ieee_number (f_prec f) (f_emax f) r = true -> exists calls,
     spatial_query T (fun i => intersects_sp F c r (point_at DIM pts i)) (fun v => intersects_sb F c r (raw_box (f_prec f) (f_emax f) DIM v)) (fun out v => (out ++ [v], false)) [] = Ok calls /\
     NoDup calls /\ forall i, i ∈ calls <-> exists p, pts !! i = Some p /\ SFleb (distance_pp F c p) r = true) /\
  (forall k cap, 1 <= k -> 2 <= length pts ->
     let dl i := as_num (f_prec f) (f_emax f) (distance_pp F c (point_at DIM pts i)) in let dv v := as_num (f_prec f) (f_emax f) (distance_pb F c (raw_box (f_prec f) (f_emax f) DIM v)) in
     nearest_query T (o_ltb N) (o_zero N) (inf_num (f_prec f) (f_emax f)) dl dv k cap = Overflow \/
     exists out, nearest_query T (o_ltb N) (o_zero N) (inf_num (f_prec f) (f_emax f)) dl dv k cap = Ok out /\
       KNearest SFltb (S754_infinity false) (fun i => distance_pp F c (point_at DIM pts i)) k (seq 0 (length pts)) out).
Proof.
  intros f DIM pts t scene Hf HD HP Hne Hn Ht Hs HX. destruct (points_scene f Hf DIM pts t scene HP Hne Ht Hs) as [HE _].
  destruct (codes_some f Hf DIM scene pts HD HE HX (points_numbers f DIM pts HP)) as (codes & E & HL & HR). exists codes. split; [done|]. intros perm sorted T HS HT.
  destruct (sorted_codes codes perm sorted HR HS) as [HSC HLs]. destruct HS as (HPe & _). rewrite HL in HPe, HLs. split; [done|]. split; [done|]. split; [done|]. intros c Hc. destruct (fmt_params f Hf).
  apply (C67_points (f_prec f) (f_emax f) DIM ltac:(done) ltac:(done) pts sorted perm T); try done. by rewrite HLs.
Qed.
Print Assumptions C70_points.

(** Likewise for boxes, with the centroids the code computes (which may overflow). *)
Theorem C70_boxes : forall f DIM bxs t scene, f = binary32 \/ f = binary64 -> 2 <= DIM <= 10 -> Forall (finite_box (f_prec f) (f_emax f) DIM) bxs -> bxs <> [] ->
  (Z.of_nat (length bxs) <= 2 ^ 63)%Z -> (forall i, i < length bxs -> i ∈ red_values t) -> scene_box f DIM bxs t = Some scene -> extents_finite f scene ->
  exists codes, codes64 f DIM scene (map (centroid_box f) bxs) = Some codes /\
  forall perm sorted T, sorted_by codes perm sorted -> float_tree (f_prec f) (f_emax f) DIM (box_at DIM bxs) sorted perm T ->
  SortedCodes 64 sorted /\ length sorted = length bxs /\ perm ≡ₚ seq 0 (length bxs) /\
  let F := FloatOps (f_prec f) (f_emax f) in let N := NumOps (f_prec f) (f_emax f) in
  (forall c r, finite_point (f_prec f) (f_emax f) DIM c -> ieee_number (f_prec f) (f_emax f) r = true -> exists calls,
     spatial_query T (fun i => intersects_sb F c r (box_at DIM bxs i)) (fun v => intersects_sb F c r (raw_box (f_prec f) (f_emax f) DIM v)) (fun out v => (out ++ [v], false)) [] = Ok calls /\
     NoDup calls /\ forall i, i ∈ calls <-> exists b, bxs !! i = Some b /\ SFleb (distance_pb F c b) r = true) /\
  (forall q, finite_box (f_prec f) (f_emax f) DIM q -> exists calls,
     spatial_query T (fun i => intersects_bb F q (box_at DIM bxs i)) (fun v => intersects_bb F q (raw_box (f_prec f) (f_emax f) DIM v)) (fun out v => (out ++ [v], false)) [] = Ok calls /\
     NoDup calls /\ forall i, i ∈ calls <-> exists b, bxs !! i = Some b /\ intersects_bb F q b = true) /\
  (forall c k cap, finite_point (f_prec f) (f_emax f) DIM c -> 1 <= k -> 2 <= length bxs ->
     let dl i := as_num (f_prec f) (f_emax f) (distance_pb F c (box_at DIM bxs i)) in let dv v := as_num (f_prec f) (f_emax f) (distance_pb F c (raw_box (f_prec f) (f_emax f) DIM v)) in
     nearest_query T (o_ltb N) (o_zero N) (inf_num (f_prec f) (f_emax f)) dl dv k cap = Overflow \/
     exists out, nearest_query T (o_ltb N) (o_zero N) (inf_num (f_prec f) (f_emax f)) dl dv k cap = Ok out /\
       KNearest SFltb (S754_infinity false) (fun i => distance_pb F c (box_at DIM bxs i)) k (seq 0 (length bxs)) out).
Proof.
  intros f DIM bxs t scene Hf HD HP Hne Hn Ht Hs HX. pose proof (fmt_ok f Hf) as Hok. destruct (scene_ok f DIM bxs t scene HP Hne Ht Hs) as [HLn HE0]. assert (Extents f DIM scene) as HE by (split; [done|intros d c Hc; exact (proj1 (HE0 d c Hc))]).
  destruct (codes_some f Hf DIM scene (map (centroid_box f) bxs) HD HE HX (boxes_numbers f Hf DIM bxs HP)) as (codes & E & HL & HR). rewrite map_length in HL. exists codes. split; [done|]. intros perm sorted T HS HT.
  destruct (sorted_codes codes perm sorted HR HS) as [HSC HLs]. destruct HS as (HPe & _). rewrite HL in HPe, HLs. split; [done|]. split; [done|]. split; [done|]. destruct (fmt_params f Hf).
  apply (C67_boxes (f_prec f) (f_emax f) DIM ltac:(done) ltac:(done) bxs sorted perm T); try done. by rewrite HLs.
Qed.
Print Assumptions C70_boxes.

(** And for DBSCAN: from finite points without overflowing extents to a valid clustering. *)
Theorem C70_dbscan : forall f DIM pts t scene eps minpts, f = binary32 \/ f = binary64 -> 2 <= DIM <= 10 -> Forall (finite_point (f_prec f) (f_emax f) DIM) pts -> pts <> [] ->
  (Z.of_nat (length pts) <= 2 ^ 63)%Z -> (forall i, i < length pts -> i ∈ red_values t) -> scene_box f DIM (map point_box pts) t = Some scene -> extents_finite f scene ->
  ieee_number (f_prec f) (f_emax f) eps = true -> SFleb (S754_zero false) eps = true -> 2 <= minpts ->
  exists codes, codes64 f DIM scene pts = Some codes /\
  forall perm sorted T, sorted_by codes perm sorted -> float_tree (f_prec f) (f_emax f) DIM (fun i => point_box (point_at DIM pts i)) sorted perm T ->
  let F := FloatOps (f_prec f) (f_emax f) in
  let near a b := SFleb (distance_pp F (point_at DIM pts a) (point_at DIM pts b)) eps in
  let pv a v := intersects_sb F (point_at DIM pts a) eps (raw_box (f_prec f) (f_emax f) DIM v) in
  exists counts outs, CountsOf T near pv (length pts) minpts counts /\ PairsOf T near pv outs /\
    fdbscan false (length pts) minpts counts outs (ValidDBSCAN (length pts) minpts near) /\
    fdbscan true (length pts) minpts counts outs (ValidDBSCANStar (length pts) minpts near).
Proof.
  intros f DIM pts t scene eps minpts Hf HD HP Hne Hn Ht Hs HX He He0 Hm. destruct (C70_points f DIM pts t scene Hf HD HP Hne Hn Ht Hs HX) as (codes & E & H). exists codes. split; [done|]. intros perm sorted T HS HT.
  destruct (H perm sorted T HS HT) as (H1 & H2 & H3 & _). destruct (fmt_params f Hf). apply (C68_dbscan (f_prec f) (f_emax f) DIM ltac:(done) ltac:(done) pts sorted perm T); try done. by rewrite H2.
Qed.
Print Assumptions C70_dbscan.

(** Five points in single precision; reductions in two orders. *)
Definition bf_pts : list (list spec_float) := [[f32 0 0; f32 0 0]; [f32 3 0; f32 4 0]; [f32 5 0; f32 0 0]; [f32 (-3) 0; f32 (-7) (-149)]; [f32 1 0; f32 1 0]].
Definition bf_red : reduction := Red_join (Red_join (Red_value 3) (Red_join (Red_value 0) (Red_value 4))) (Red_join Red_init (Red_join (Red_value 1) (Red_value 2))).
Definition bf_scene := default [] (scene_box binary32 2 (map point_box bf_pts) bf_red).
Definition bf_codes := default [] (codes64 binary32 2 bf_scene bf_pts).
Definition bf_perm : list nat := [3; 0; 4; 2; 1].
Definition bf_sorted := omap (fun i => bf_codes !! i) bf_perm.
Definition bf_tree : tree (ibox 24 128 2) :=
  default empty_tree (build_seq (i_join 24 128 2) (i_empty 24 128 2) (fun i => as_ibox 24 128 2 (point_box (point_at 2 bf_pts i))) 64 bf_sorted bf_perm).
Example C70_example_codes : Forall (finite_point 24 128 2) bf_pts /\ scene_box binary32 2 (map point_box bf_pts) bf_red = Some bf_scene /\ extents_finite binary32 bf_scene /\
  codes64 binary32 2 bf_scene bf_pts = Some bf_codes /\ bf_codes = [720575940379279360; 4419532434326246741; 3074457345618258602; 0; 2594073385365405696]%Z.
Proof. split; [repeat constructor|]. split; [vm_compute; reflexivity|]. split; [repeat constructor|]. split; vm_compute; reflexivity. Qed.
Example C70_example_tree : sorted_by bf_codes bf_perm bf_sorted /\ float_tree 24 128 2 (fun i => point_box (point_at 2 bf_pts i)) bf_sorted bf_perm bf_tree.
Proof.
  split; [split; [|split]|].
  - apply (bool_decide_unpack _); vm_compute; reflexivity.
  - apply (bool_decide_unpack _); vm_compute; reflexivity.
  - assert (SortedCodes 64 bf_sorted) as [H _] by (apply sorted_codesb_ok; vm_compute; reflexivity). exact H.
  - apply build_seq_built; [vm_compute; lia|]. apply default_built. vm_compute. reflexivity.
Qed.
Example C70_example_query :
  let c := [f32 0 0; f32 1 (-2)] in let r := f32 5 0 in
  spatial_query bf_tree (fun i => intersects_sp F32 c r (point_at 2 bf_pts i)) (fun v => intersects_sb F32 c r (raw_box 24 128 2 v)) (fun out v => (out ++ [v], false)) [] = Ok [3; 0; 4; 1].
Proof. vm_compute. reflexivity. Qed.
Example C70_example_boxes : let b := [(f32 (-1) 127, f32 (-1) 125); (f32 0 0, f32 1 (-149))] in let b' := [(f32 1 120, f32 1 126); (f32 0 0, f32 1 (-149))] in
  Forall (finite_box 24 128 2) [b; b'] /\
  exists scene, scene_box binary32 2 [b; b'] (Red_join (Red_value 1) (Red_value 0)) = Some scene /\ extents_finite binary32 scene /\ codes64 binary32 2 scene (map (centroid_box binary32) [b; b']) = Some [576460752303423488; 2921147308303187968]%Z.
Proof. split; [repeat constructor|]. eexists. split; [vm_compute; reflexivity|]. split; [repeat constructor|]. vm_compute. reflexivity. Qed.

(** ** C71: the tree over arbitrary finite coordinates *)
(** Two points whose distance along a coordinate overflows: the scaled coordinate of the upper one is inf / inf, and the conversion of the
    NaN to an integer is undefined.  In either precision. *)
Theorem C71_refuted : exists f DIM pts t scene, f = binary32 /\ 2 <= DIM <= 10 /\ Forall (finite_point (f_prec f) (f_emax f) DIM) pts /\ (forall i, i < length pts <-> i ∈ red_values t) /\
  scene_box f DIM (map point_box pts) t = Some scene /\ codes64 f DIM scene pts = None.
Proof.
  exists binary32, 3, [[f32 (-3) 126; f32 0 0; f32 0 0]; [f32 3 126; f32 1 0; f32 0 0]], (Red_join (Red_value 0) (Red_value 1)). eexists. split; [done|]. split; [lia|]. split; [repeat constructor|]. split.
  - intros i. cbn. rewrite !elem_of_cons, elem_of_nil. lia.
  - split; [vm_compute; reflexivity|]. vm_compute. reflexivity.
Qed.
Print Assumptions C71_refuted.
(** Not even for boxes of which no centroid or single extent overflows. *)
Theorem C71_boxes_refuted : exists f DIM bxs t scene, f = binary64 /\ 2 <= DIM <= 10 /\ Forall (finite_box (f_prec f) (f_emax f) DIM) bxs /\ Forall (extents_finite f) bxs /\
  Forall (fun b => Forall (fun x => ieee_finite (f_prec f) (f_emax f) x = true) (centroid_box f b)) bxs /\ (forall i, i < length bxs <-> i ∈ red_values t) /\
  scene_box f DIM bxs t = Some scene /\ codes64 f DIM scene (map (centroid_box f) bxs) = None.
Proof.
  exists binary64, 2, [[(f64 (-7) 1021, f64 0 0); (f64 0 0, f64 1 0)]; [(f64 0 0, f64 7 1021); (f64 0 0, f64 1 0)]], (Red_join (Red_value 0) (Red_value 1)). eexists. split; [done|]. split; [lia|].
  split; [repeat constructor|]. split; [repeat constructor|]. split; [repeat constructor|]. split.
  - intros i. cbn. rewrite !elem_of_cons, elem_of_nil. lia.
  - split; [vm_compute; reflexivity|]. vm_compute. reflexivity.
Qed.
Print Assumptions C71_boxes_refuted.

(** ** C72: centroids *)
(** The centroid of a finite box lies in the box if no sum of two corners overflows. *)
Theorem C72_box : forall f DIM b, f = binary32 \/ f = binary64 -> finite_box (f_prec f) (f_emax f) DIM b ->
  Forall (fun c => ieee_finite (f_prec f) (f_emax f) (SFadd (f_prec f) (f_emax f) c.1 c.2) = true) b ->
  finite_point (f_prec f) (f_emax f) DIM (centroid_box f b) /\
  forall d c x, b !! d = Some c -> centroid_box f b !! d = Some x -> SFleb c.1 x = true /\ SFleb x c.2 = true.
Proof.
  intros f DIM b Hf [HL HB] HS. pose proof (fmt_ok f Hf) as Hok.
  assert (forall d c, b !! d = Some c -> let x := SFdiv (f_prec f) (f_emax f) (SFadd (f_prec f) (f_emax f) c.1 c.2) (f_int f 2) in
    ieee_finite (f_prec f) (f_emax f) x = true /\ SFleb c.1 x = true /\ SFleb x c.2 = true) as H.
  { intros d c Hc. rewrite Forall_lookup in HB. rewrite Forall_lookup in HS. destruct (HB d c Hc) as (F1 & F2 & Hlt). apply (ltb_V_false (f_prec f) (f_emax f)) in Hlt; [|by apply finite_number..].
    destruct (half_between f Hf c.1 c.2 F1 F2 Hlt (HS d c Hc)) as (F3 & G1 & G2). split; [done|]. split; (apply (leb_V (f_prec f) (f_emax f)); [by apply finite_number..|done]). }
  split; [split; [unfold centroid_box; by rewrite map_length|]|].
  - apply Forall_lookup. intros d x Hx. unfold centroid_box in Hx. rewrite list_lookup_fmap in Hx. apply fmap_Some in Hx as (c & Hc & ->). by apply (H d c).
  - intros d c x Hc Hx. unfold centroid_box in Hx. rewrite list_lookup_fmap, Hc in Hx. injection Hx as <-. by apply (H d c).
Qed.
Print Assumptions C72_box.

(** The centroid of a segment with finite ends lies between them in every coordinate if no sum overflows. *)
Theorem C72_segment : forall f DIM a b, f = binary32 \/ f = binary64 -> finite_point (f_prec f) (f_emax f) DIM a -> finite_point (f_prec f) (f_emax f) DIM b ->
  (forall d x y, a !! d = Some x -> b !! d = Some y -> ieee_finite (f_prec f) (f_emax f) (SFadd (f_prec f) (f_emax f) x y) = true) ->
  finite_point (f_prec f) (f_emax f) DIM (centroid_segment f a b) /\
  forall d x y m, a !! d = Some x -> b !! d = Some y -> centroid_segment f a b !! d = Some m ->
    (SFleb x y = true /\ SFleb x m = true /\ SFleb m y = true) \/ (SFleb y x = true /\ SFleb y m = true /\ SFleb m x = true).
Proof.
  intros f DIM a b Hf [L1 H1] [L2 H2] HS. pose proof (fmt_ok f Hf) as Hok. rewrite Forall_lookup in H1. rewrite Forall_lookup in H2.
  assert (forall d x y, a !! d = Some x -> b !! d = Some y -> let m := SFdiv (f_prec f) (f_emax f) (SFadd (f_prec f) (f_emax f) x y) (f_int f 2) in
    ieee_finite (f_prec f) (f_emax f) m = true /\ ((SFleb x y = true /\ SFleb x m = true /\ SFleb m y = true) \/ (SFleb y x = true /\ SFleb y m = true /\ SFleb m x = true))) as H.
  { intros d x y Hx Hy m. specialize (H1 d x Hx). specialize (H2 d y Hy). specialize (HS d x y Hx Hy). destruct (Rle_or_lt (Vf f x) (Vf f y)) as [Hle|Hlt%Rlt_le].
    - destruct (half_between f Hf x y H1 H2 Hle HS) as (F3 & G1 & G2). split; [done|]. left. rewrite !(leb_V (f_prec f) (f_emax f)) by (by apply finite_number). done.
    - destruct (half_comm f Hf x y H1 H2) as [E1 E2]. destruct (half_between f Hf y x H2 H1 Hlt ltac:(by apply E2)) as (F3 & G1 & G2). rewrite <- E1 in G1, G2.
      assert (ieee_finite (f_prec f) (f_emax f) m = true) as F3'.
      { apply (number_hi (f_prec f) (f_emax f)); [by apply (half_number f Hf)|]. unfold m. rewrite E1. by apply (V_finite (f_prec f)). }
      split; [done|]. right. rewrite !(leb_V (f_prec f) (f_emax f)) by (by apply finite_number). done. }
  split; [split; [unfold centroid_segment; rewrite zip_with_length; lia|]|].
  - apply Forall_lookup. intros d m Hm. apply lookup_zip_with_Some in Hm as (x & y & -> & Hx & Hy). by apply (H d x y).
  - intros d x y m Hx Hy Hm. apply lookup_zip_with_Some in Hm as (x' & y' & -> & Hx' & Hy'). rewrite Hx in Hx'. rewrite Hy in Hy'. injection Hx' as <-. injection Hy' as <-. by apply (H d x y).
Qed.
Print Assumptions C72_segment.

(** Without the condition: the centroid of a box is infinite. *)
Theorem C72_overflow_refuted : exists f DIM b c x, f = binary32 /\ finite_box (f_prec f) (f_emax f) DIM b /\ extents_finite f b /\ b !! 0 = Some c /\ centroid_box f b !! 0 = Some x /\ SFleb x c.2 = false.
Proof. exists binary32, 1, [(f32 1 127, f32 3 126)]. do 2 eexists. split; [done|]. split; [split; [done|repeat constructor]|]. split; [repeat constructor|]. split; [done|]. split; [vm_compute; reflexivity|]. vm_compute. reflexivity. Qed.
Print Assumptions C72_overflow_refuted.
(** The centroid of a triangle in the plane x = 16777214 is off the plane, outside of the bounding box of the triangle. *)
Theorem C72_triangle_refuted : exists f a b c x, f = binary32 /\ Forall (finite_point (f_prec f) (f_emax f) 3) [a; b; c] /\
  a !! 0 = Some (f32 16777214 0) /\ b !! 0 = Some (f32 16777214 0) /\ c !! 0 = Some (f32 16777214 0) /\ centroid_triangle f a b c !! 0 = Some x /\ SFltb x (f32 16777214 0) = true.
Proof.
  exists binary32, [f32 16777214 0; f32 0 0; f32 0 0], [f32 16777214 0; f32 1 0; f32 0 0], [f32 16777214 0; f32 0 0; f32 1 0]. eexists. split; [done|]. split; [repeat constructor|].
  do 3 (split; [done|]). split; [vm_compute; reflexivity|]. vm_compute. reflexivity.
Qed.
Print Assumptions C72_triangle_refuted.
Example C72_example : let b := [(f32 (-1) 127, f32 1 127); (f32 1 (-149), f32 1 (-149)); (f32 1 0, f32 16777215 0)] in
  finite_box 24 128 3 b /\ Forall (fun c => ieee_finite 24 128 (SFadd 24 128 c.1 c.2) = true) b /\ centroid_box binary32 b = [S754_zero false; f32 1 (-149); f32 8388608 0].
Proof. split; [split; [done|repeat constructor]|]. split; [repeat constructor|]. vm_compute. reflexivity. Qed.
Example C72_example_segment : centroid_segment binary32 [f32 3 0; f32 1 (-149)] [f32 (-1) 0; f32 2 (-149)] = [f32 1 0; f32 2 (-149)].
Proof. vm_compute. reflexivity. Qed.
