(** C70: from floating-point coordinates to the dendrogram of HDBSCAN. *)
From Coq Require Import Reals SpecFloat.
From Flocq Require Import Core IEEE754.BinarySingleNaN.
From Verif Require Import Base HeapSpec TreeSpec TraversalSpec GeomOps BoxModel BoxSpec MortonFloatModel BuildFloatModel IeeeSpec IeeeModel IeeeProof BuildFloatProof BuildFloatTreeProof.
From Verif Require Import TraversalModel NearestProof HeightProof PropertiesNeighbor PropertiesDbscan PropertiesHdbscan PropertiesCore HdbscanProof CoreModel CoreProof PropertiesBoruvka.
From Verif Require Import PropertiesBox PropertiesTraversal PropertiesIeee PropertiesBuildFloat VerifyModel VerifySpec PropertiesVerify.
Local Open Scope nat_scope.

(** Finite points in single precision, computed distances finite, no difference of opposite corners of the scene overflows, and either at most
    65 points or pairwise distinct Morton codes: whatever order the reduction of the scene box took, whatever permutation sorts the codes and
    whatever schedule built the tree, hdbscan with its stack of 64 entries returns, for every interleaving, a single-linkage dendrogram. *)
Theorem C70_hdbscan : forall DIM pts t scene, 2 <= DIM <= 10 -> Forall (finite_point 24 128 DIM) pts ->
  (forall p q, p ∈ pts -> q ∈ pts -> SFltb (distance_pp F32 p q) (S754_infinity false) = true) -> 2 <= length pts -> (N.of_nat (length pts) <= 2 ^ 30)%N ->
  (forall i, i < length pts -> i ∈ red_values t) -> scene_box binary32 DIM (map point_box pts) t = Some scene -> extents_finite binary32 scene ->
  exists codes, codes64 binary32 DIM scene pts = Some codes /\
  (length pts <= 65 \/ NoDup codes -> forall perm sorted T, sorted_by codes perm sorted -> float_tree 24 128 DIM (fun i => point_box (point_at DIM pts i)) sorted perm T ->
  let dl a b := as_f32n (distance_pp F32 (point_at DIM pts a) (point_at DIM pts b)) in
  let dv a v := as_f32n (distance_pb F32 (point_at DIM pts a) (raw_box 24 128 DIM v)) in
  forall k, exists reach : nat -> nat -> f32n,
  (k <= 1 -> forall a b, reach a b = dl a b) /\
  (1 < k -> exists core, (forall a, a < length pts -> KthDistance f32n_lt (dl a) (length pts) (min k (length pts)) (core a)) /\
    forall a b, Greatest f32n_lt (core a) (core b) (dl a b) (reach a b)) /\
  forall shared bounded order par0 garbage edges0,
  order ≡ₚ seq 0 (2 * (length pts - 1)) -> length par0 = 2 * length pts - 1 -> length garbage = length pts - 1 -> length edges0 = length pts - 1 ->
  hdbscan_union_find T f32n_lt f32n_zero f32n_inf dl dv 64 shared bounded k (Nat.log2 (length pts)) order par0 garbage edges0 (Dendrogram f32n_lt (length pts) reach) /\
  forall map0 sided0 parents0, length map0 = length pts -> length sided0 = length pts - 1 -> length parents0 = 2 * length pts - 1 ->
  hdbscan_boruvka T f32n_lt f32n_zero f32n_inf dl dv 64 (fun x => f32_bits (proj1_sig x)) shared bounded k (Nat.log2 (length pts)) order par0 garbage edges0 map0 sided0 parents0 (Dendrogram f32n_lt (length pts) reach)).
Proof.
  intros DIM pts t scene HD HP Hd H2 H30 Ht Hs HX.
  assert (Z.of_nat (length pts) <= 2 ^ 63)%Z as Hn by (clear -H30; change (2 ^ 63)%Z with 9223372036854775808%Z; change (2 ^ 30)%N with 1073741824%N in H30; lia).
  assert (pts <> []) as Hne by (intros ->; simpl in H2; lia).
  destruct (C70_points binary32 DIM pts t scene (or_introl eq_refl) HD HP Hne Hn Ht Hs HX) as (codes & E & H). exists codes. split; [done|]. intros Hh perm sorted T HS HT.
  destruct (H perm sorted T HS HT) as (H1 & HL & H3 & _). change (f_prec binary32) with 24%Z in *. change (f_emax binary32) with 128%Z in *.
  assert (length perm = length pts) as HLp by (rewrite H3; apply seq_length).
  assert (Hprec : FLX.Prec_gt_0 24) by done. assert (Hmax : Prec_lt_emax 24 128) by done.
  cbn zeta. intros k. apply (C69_hdbscan DIM pts sorted perm T 64 64); try done.
  destruct Hh as [Hsm|HND].
  - pose proof (C01_index_over_any_number_of_values _ (ile 24 128 DIM) (i_join 24 128 DIM) (i_empty 24 128 DIM) _ 64 sorted perm T (ibox_join 24 128 DIM) ltac:(lia) ltac:(congruence) ltac:(lia) H1 HT) as HI.
    destruct HI as [[HI _]|[_ VT]]; [lia|]. apply (HeightLe_mono T _ (length perm - 1 - 0)); [|lia].
    apply (height_size _ _ perm T VT (length perm) _ 0 (length perm - 1) None); [lia|]. apply VT.
  - destruct HS as (P1 & P2 & _). assert (NoDup sorted) as HNs.
    { apply NoDup_alt. intros i j z Hi Hj. pose proof (Forall2_lookup_r _ _ _ _ _ P2 Hi) as (a & Ha & Ca). pose proof (Forall2_lookup_r _ _ _ _ _ P2 Hj) as (b & Hb & Cb).
      assert (a = b) as -> by exact (NoDup_lookup _ _ _ _ HND Ca Cb). assert (NoDup perm) as NP by (rewrite P1; apply NoDup_seq). exact (NoDup_lookup _ _ _ _ NP Ha Hb). }
    apply (HeightLe_mono T _ 63); [|lia]. destruct perm as [|a [|b perm]]; [simpl in HLp; lia..|]. destruct HT as (ts & s & He & HDn & HTr).
    exact (construction_height (ile 24 128 DIM) (i_join 24 128 DIM) (i_empty 24 128 DIM) _ (a :: b :: perm) 64 sorted (length sorted - 1) (ibox_join 24 128 DIM) ltac:(lia) ltac:(lia) ltac:(lia) ltac:(lia) ltac:(lia) H1 ts s T He HDn HTr
      63 63 ltac:(lia) ltac:(lia) ltac:(lia) (distinct_lev sorted (length sorted - 1) 63 ltac:(lia) HNs ltac:(lia))).
Qed.
Print Assumptions C70_hdbscan.

(** Its hypotheses: the five points of C70_example_codes and C70_example_tree. *)
Example C70_hdbscan_example : (forall p q, p ∈ bf_pts -> q ∈ bf_pts -> SFltb (distance_pp F32 p q) (S754_infinity false) = true) /\ (forall i, i < length bf_pts -> i ∈ red_values bf_red) /\
  (length bf_pts <= 65 /\ NoDup bf_codes).
Proof.
  split; [|split; [|split; [vm_compute; lia|]]].
  - intros p q Hp Hq. assert (forall p, p ∈ bf_pts -> length p = 2 /\ Forall (fun x => ieee_finite 24 128 x = true /\ SFleb (SFabs x) (f32 1 61) = true) p) as Hs.
    { apply Forall_forall. repeat constructor. }
    destruct (Hs p Hp) as [L1 F1], (Hs q Hq) as [L2 F2]. apply C69_no_overflow; [congruence|lia|done|done].
  - intros i Hi. cbn. cbn in Hi. rewrite !elem_of_cons, elem_of_nil. lia.
  - apply (bool_decide_unpack _). vm_compute. reflexivity.
Qed.
Example C70_hdbscan_example_core :
  core_distances bf_tree f32n_lt f32n_zero f32n_inf (fun a b => as_f32n (distance_pp F32 (point_at 2 bf_pts a) (point_at 2 bf_pts b)))
    (fun a v => as_f32n (distance_pb F32 (point_at 2 bf_pts a) (raw_box 24 128 2 v))) 64 2 = Some (as_f32n <$> [o_sqrt F32 (f32 2 0); o_sqrt F32 (f32 13 0); o_sqrt F32 (f32 17 0); f32 3 0; o_sqrt F32 (f32 2 0)]).
Proof. vm_compute. reflexivity. Qed.

(** ** C81 in floating point *)
(** The rows of the queries in compressed form (C11). *)
Fixpoint row_offsets (d : nat) (rows : list (list nat)) : list nat := d :: match rows with [] => [] | r :: rows => row_offsets (d + length r) rows end.
Lemma row_offsets_length rows : forall d, length (row_offsets d rows) = S (length rows).
Proof. induction rows as [|r rows IH]; intros d; simpl; [done|]. by rewrite IH. Qed.
Lemma row_offsets_lookup rows : forall d i, i <= length rows -> row_offsets d rows !! i = Some (d + length (concat (take i rows))).
Proof.
  induction rows as [|r rows IH]; intros d i Hi; simpl in *; [assert (i = 0) as -> by lia; simpl; f_equal; lia|]. destruct i as [|i]; simpl; [f_equal; lia|].
  rewrite (IH _ i ltac:(lia)), app_length. f_equal. lia.
Qed.
Lemma rows_lists near rows : (forall i r, rows !! i = Some r -> r ≡ₚ List.filter (near i) (seq 0 (length rows))) -> NeighbourLists (length rows) near (row_offsets 0 rows) (concat rows).
Proof.
  intros H. split; [apply row_offsets_length|]. split; [by rewrite row_offsets_lookup by lia|]. split; [rewrite row_offsets_lookup by lia; by rewrite take_ge|]. intros i Hi. destruct (lookup_lt_is_Some_2 rows i Hi) as [r Hr].
  exists (length (concat (take i rows))), r. split; [by rewrite row_offsets_lookup by lia|]. split; [rewrite row_offsets_lookup by lia; rewrite (take_S_r _ _ _ Hr), concat_app, app_length; simpl; rewrite app_nil_r; done|]. split; [by apply H|].
  intros k j Hk. rewrite <- (take_drop_middle rows i r Hr), concat_app. simpl. rewrite take_app_alt by (rewrite take_length; apply lookup_lt_Some in Hr; lia).
  rewrite lookup_app_r by lia. replace (length (concat (take i rows)) + k - length (concat (take i rows))) with k by lia. apply lookup_app_l_Some. done.
Qed.
(** The rows that the queries of the verifier return on the tree over finite points make it accept exactly the clusterings for the computed
    distances; also when distances overflow.  With C68_dbscan: it accepts what dbscan returns. *)
Theorem C81_ieee : forall prec emax DIM, (0 < prec)%Z -> (prec < emax)%Z ->
  forall pts codes perm T eps minpts, Forall (finite_point prec emax DIM) pts -> perm ≡ₚ seq 0 (length pts) -> length codes = length pts ->
  (Z.of_nat (length codes) <= 2 ^ 63)%Z -> SortedCodes 64 codes ->
  float_tree prec emax DIM (fun i => point_box (point_at DIM pts i)) codes perm T ->
  ieee_number prec emax eps = true -> SFleb (S754_zero false) eps = true ->
  let F := FloatOps prec emax in
  let near a b := SFleb (distance_pp F (point_at DIM pts a) (point_at DIM pts b)) eps in
  exists rows, length rows = length pts /\
    (forall i row, rows !! i = Some row ->
      spatial_query T (fun j => intersects_sp F (point_at DIM pts i) eps (point_at DIM pts j)) (fun v => intersects_sb F (point_at DIM pts i) eps (raw_box prec emax DIM v)) (fun out v => (out ++ [v], false)) [] = Ok row) /\
    forall labels order, length labels = length pts -> order ≡ₚ seq 0 (length pts) ->
    (exists b, verify_dbscan false minpts labels order (row_offsets 0 rows) (concat rows) = Some b /\ (b = true <-> Clustering (length pts) minpts near labels)) /\
    (exists b, verify_dbscan true minpts labels order (row_offsets 0 rows) (concat rows) = Some b /\ (b = true <-> ClusteringStar (length pts) minpts near labels)).
Proof.
  intros prec emax DIM H1 H2 pts codes perm T eps minpts Hpts HP HL Hn HS HB He He0 F near. pose proof (fun a => point_at_finite prec emax DIM pts a Hpts) as Hf.
  assert (forall a b, near a b = near b a) as Hs.
  { intros a b. unfold near. destruct (C67_distances prec emax DIM H1 H2 _ _ (Hf a) (Hf b)) as [(_ & _ & E & _) _]. cbn zeta in E. unfold F. by rewrite E. }
  assert (forall a, near a a = true) as Hr.
  { intros a. unfold near. destruct (C67_distances prec emax DIM H1 H2 _ _ (Hf a) (Hf a)) as [(N1 & _ & _ & N2) _]. change (FLX.Prec_gt_0 prec) in H1. change (Prec_lt_emax prec emax) in H2. rewrite (eqb_V prec emax) in N2 by done.
    rewrite (leb_V prec emax) in He0 |- * by done. unfold F. rewrite N2. done. }
  set (q := fun i => spatial_query T (fun j => intersects_sp F (point_at DIM pts i) eps (point_at DIM pts j)) (fun v => intersects_sb F (point_at DIM pts i) eps (raw_box prec emax DIM v)) (fun out v => (out ++ [v], false)) []).
  assert (forall i, exists row, q i = Ok row /\ row ≡ₚ List.filter (near i) (seq 0 (length pts))) as Hq.
  { intros i. destruct (C67_points prec emax DIM H1 H2 pts codes perm T Hpts HP HL Hn HS HB (point_at DIM pts i) (Hf i)) as [Hw _]. destruct (Hw eps He) as (calls & E1 & ND & HI). exists calls. split; [exact E1|].
    apply NoDup_Permutation; [done|apply NoDup_ListNoDup, List.NoDup_filter, NoDup_ListNoDup, NoDup_seq|]. intros j. rewrite HI, elem_of_list_In, filter_In, in_seq. split.
    - intros (p & Hp & Hd). split; [split; [lia|by apply lookup_lt_Some in Hp]|]. unfold near. unfold point_at at 2. by rewrite (nth_lookup_Some pts j _ p Hp).
    - intros [Hj Hd]. destruct (lookup_lt_is_Some_2 pts j) as [p Hp]; [lia|]. exists p. split; [done|]. unfold near in Hd. unfold point_at at 2 in Hd. by rewrite (nth_lookup_Some pts j _ p Hp) in Hd. }
  set (rows := map (fun i => match q i with Ok row => row | _ => [] end) (seq 0 (length pts))). assert (length rows = length pts) as HLr by (unfold rows; by rewrite map_length, seq_length).
  assert (forall i row, rows !! i = Some row -> q i = Ok row /\ row ≡ₚ List.filter (near i) (seq 0 (length pts))) as Hrow.
  { intros i row Hi. unfold rows in Hi. rewrite list_lookup_fmap in Hi. apply fmap_Some in Hi as (i' & Hi & ->). apply lookup_seq in Hi as [-> Hi]. simpl. destruct (Hq i) as (row & E & HPr). by rewrite E. }
  exists rows. split; [done|]. split; [intros i row Hi; by apply Hrow|]. intros labels order Hlab Hord.
  assert (NeighbourLists (length pts) near (row_offsets 0 rows) (concat rows)) as HNL by (rewrite <- HLr; apply rows_lists; intros i row Hi; rewrite HLr; by apply Hrow). split.
  - apply C81_dbscan; done.
  - apply C81_star; done.
Qed.
Print Assumptions C81_ieee.

(** The five points of C70_example_tree with eps = 4 and minpts = 3: two core points, two border points and noise. *)
Definition verify_row (i : nat) : res (list nat) := spatial_query bf_tree (fun j => intersects_sp F32 (point_at 2 bf_pts i) (f32 4 0) (point_at 2 bf_pts j)) (fun v => intersects_sb F32 (point_at 2 bf_pts i) (f32 4 0) (raw_box 24 128 2 v)) (fun out v => (out ++ [v], false)) [].
Definition verify_rows : list (list nat) := [[3; 0; 4]; [4; 1]; [2]; [3; 0]; [0; 4; 1]].
Example C81_ieee_example : ieee_number 24 128 (f32 4 0) = true /\ SFleb (S754_zero false) (f32 4 0) = true /\ map verify_row (seq 0 5) = map Ok verify_rows /\
  verify_dbscan false 3 [0; 0; -1; 0; 0]%Z (seq 0 5) (row_offsets 0 verify_rows) (concat verify_rows) = Some true /\
  verify_dbscan false 3 [0; 0; -1; 0; 4]%Z (seq 0 5) (row_offsets 0 verify_rows) (concat verify_rows) = Some false /\
  verify_dbscan true 3 [7; -1; -1; -1; 7]%Z (seq 0 5) (row_offsets 0 verify_rows) (concat verify_rows) = Some true.
Proof. repeat (split; [vm_compute; reflexivity|]). vm_compute. reflexivity. Qed.
