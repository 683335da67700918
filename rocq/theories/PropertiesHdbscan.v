(** C65: the dendrogram of HDBSCAN computed together with the minimum spanning tree (src/cluster/ArborX_MinimumSpanningTree.hpp,
    detail/ArborX_BoruvkaHelpers.hpp), the default of ArborX_HDBSCAN.hpp. *)
From Verif Require Import HdbscanProof PropertiesBoruvka PropertiesTraversal PropertiesLabel PropertiesGrid BoxFloatModel.
From Coq Require Import SpecFloat.
Local Open Scope nat_scope.

(** For every input of C27 of at most 2^30 points and every reading of the weights as non-negative ints that orders them like the
    weights do (bit_cast), with any number of ties; for both settings of the two optimisations, any content of the uninitialised
    arrays, every interleaving of every kernel and every sorting permutation (equal keys in any order): no thread is stuck or runs
    forever, the edges form a minimum spanning tree, and the parents with the heights are the single-linkage dendrogram. *)
Theorem C65_dendrogram :
  forall V W (le : V -> V -> Prop) vol perm (T : tree V) (ltb : W -> W -> bool) zero inf dl dv metric cap H (bits : W -> Z),
  MstInput le vol perm T ltb zero inf dl dv metric cap H -> (N.of_nat (length perm) <= 2 ^ 30)%N ->
  (forall a, ltb a zero = false -> ltb a inf = true -> (0 <= bits a < 2 ^ 31)%Z) ->
  (forall a b, ltb a zero = false -> ltb a inf = true -> ltb b zero = false -> ltb b inf = true -> ltb a b = (bits a <? bits b)%Z) ->
  forall shared bounded order par0 garbage edges0 map0 sided0 parents0,
  order ≡ₚ seq 0 (2 * (length perm - 1)) -> length par0 = 2 * length perm - 1 ->
  length garbage = length perm - 1 -> length edges0 = length perm - 1 ->
  length map0 = length perm -> length sided0 = length perm - 1 -> length parents0 = 2 * length perm - 1 ->
  hdbscan T ltb zero inf dl dv metric cap shared bounded bits (Nat.log2 (length perm)) order par0 garbage edges0 map0 sided0 parents0 (fun es par heights =>
    Dendrogram ltb (length perm) (pair_weight dl metric) par heights /\
    heights = w_weight <$> es /\
    (forall e, e ∈ es -> weq ltb (w_weight e) (pair_weight dl metric (ends e).1 (ends e).2) = true) /\
    forall val : W -> Q, (forall x y, ltb y x = false -> (val x <= val y)%Q) -> (0 <= val zero)%Q ->
      MinimumSpanningTree (length perm) (fun a b => val (pair_weight dl metric a b)) (ends <$> es)).
Proof.
  intros V W le vol perm T ltb zero inf dl dv metric cap H bits MI NB Hb Hbl shared bounded order par0 garbage edges0 map0 sided0 parents0 HO HP HG HE HM HS HD.
  apply (hdbscan_ok le vol perm T ltb zero inf dl dv metric cap H MI NB bits Hb Hbl); try done.
  intros es par heights HR Hh HDg. split; [done|]. split; [done|]. split.
  - destruct HR as (F & _ & _ & _ & _ & _ & HW). exact HW.
  - intros val Hm Hz. exact (result_mst le vol perm T ltb zero inf dl dv metric cap H MI es val Hm Hz HR).
Qed.
Print Assumptions C65_dendrogram.

(** The bit patterns of the single precision numbers of positive sign (not -0) are such ints; the pattern of m * 2^e, where
    m < 2^24 and m >= 2^23 unless e = -149, is (e + 149) * 2^23 + m (IEEE 754, 3.4). *)
Definition f32_nonneg (x : spec_float) : bool :=
  match x with S754_zero false | S754_infinity false => true | S754_finite false m e => bounded 24 128 m e | _ => false end.
Definition f32_bits (x : spec_float) : Z :=
  match x with S754_finite _ m e => (e + 149) * 2 ^ 23 + Zpos m | S754_infinity _ => 255 * 2 ^ 23 | _ => 0 end.
Definition f32n : Type := { x : spec_float | f32_nonneg x = true }.
Definition f32n_lt (a b : f32n) : bool := SFltb (`a) (`b).
Definition f32n_zero : f32n := exist _ (S754_zero false) eq_refl.
Definition f32n_inf : f32n := exist _ (S754_infinity false) eq_refl.
Lemma f32_mantissa m e : bounded 24 128 m e = true -> (-149 <= e <= 104)%Z /\ (Zpos m < 2 ^ 24)%Z /\ (e = -149 \/ 2 ^ 23 <= Zpos m)%Z.
Proof.
  intros Hb. unfold bounded, canonical_mantissa in Hb. apply andb_true_iff in Hb as [H1 H2]. apply Zeq_bool_eq in H1. apply Zle_bool_imp_le in H2. unfold fexp, emin in H1.
  assert (forall p, 2 ^ (Zpos (digits2_pos p) - 1) <= Zpos p < 2 ^ Zpos (digits2_pos p))%Z as Hd.
  { induction p as [p IH|p IH|]; cbn [digits2_pos]; [| |done].
    - rewrite Pos2Z.inj_succ, Z.sub_succ_l, !Z.pow_succ_r by lia. lia.
    - rewrite Pos2Z.inj_succ, Z.sub_succ_l, !Z.pow_succ_r by lia. lia. }
  specialize (Hd m). split; [lia|]. split.
  - eapply Z.lt_le_trans; [apply Hd|]. apply Z.pow_le_mono_r; lia.
  - destruct (Z.eq_dec e (-149)) as [|Hne]; [by left|right]. etransitivity; [|apply Hd]. apply Z.pow_le_mono_r; lia.
Qed.
Theorem C65_float_bits :
  (forall a, f32n_lt a f32n_inf = true -> (0 <= f32_bits (`a) < 2 ^ 31)%Z) /\
  (forall a b, f32n_lt a b = (f32_bits (`a) <? f32_bits (`b))%Z).
Proof.
  split.
  - intros [[[]|[]| |[] m e] Ha] Hi; cbn in Ha; try done. cbn [proj1_sig f32_bits]. destruct (f32_mantissa m e Ha) as (H1 & H2 & H3). change (2 ^ 31)%Z with 2147483648%Z. change (2 ^ 23)%Z with 8388608%Z in *. change (2 ^ 24)%Z with 16777216%Z in *. lia.
  - intros [[[]|[]| |[] m e] Ha] [[[]|[]| |[] m' e'] Hb]; cbn in Ha, Hb; try done; unfold f32n_lt; cbn [proj1_sig]; unfold SFltb; cbn [SFcompare f32_bits].
    all: repeat match goal with H : bounded _ _ _ _ = true |- _ => apply f32_mantissa in H end.
    all: change (2 ^ 23)%Z with 8388608%Z in *; change (2 ^ 24)%Z with 16777216%Z in *.
    all: try (symmetry; first [apply Z.ltb_lt; lia|apply Z.ltb_ge; lia]).
    destruct (Z.compare_spec e e') as [->|Hlt|Hgt]; cbn [CompOpp].
    + destruct (Pos.compare_cont Eq m m') eqn:E1; symmetry.
      * apply Pos.compare_eq in E1. subst. apply Z.ltb_irrefl.
      * apply Z.ltb_lt. apply (proj1 (Pos.compare_lt_iff _ _)) in E1. lia.
      * apply Z.ltb_ge. apply (proj1 (Pos.compare_gt_iff _ _)) in E1. lia.
    + symmetry. apply Z.ltb_lt. nia.
    + symmetry. apply Z.ltb_ge. nia.
Qed.
Print Assumptions C65_float_bits.
(** So the theorem holds for weights in single precision. *)
Theorem C65_single_precision :
  forall V (le : V -> V -> Prop) vol perm (T : tree V) dl dv metric cap H,
  MstInput le vol perm T f32n_lt f32n_zero f32n_inf dl dv metric cap H -> (N.of_nat (length perm) <= 2 ^ 30)%N ->
  forall shared bounded order par0 garbage edges0 map0 sided0 parents0,
  order ≡ₚ seq 0 (2 * (length perm - 1)) -> length par0 = 2 * length perm - 1 ->
  length garbage = length perm - 1 -> length edges0 = length perm - 1 ->
  length map0 = length perm -> length sided0 = length perm - 1 -> length parents0 = 2 * length perm - 1 ->
  hdbscan T f32n_lt f32n_zero f32n_inf dl dv metric cap shared bounded (fun x => f32_bits (`x)) (Nat.log2 (length perm)) order par0 garbage edges0 map0 sided0 parents0
    (fun es par heights => Dendrogram f32n_lt (length perm) (pair_weight dl metric) par heights /\ heights = w_weight <$> es).
Proof.
  intros V le vol perm T dl dv metric cap H MI NB shared bounded order par0 garbage edges0 map0 sided0 parents0 HO HP HG HE HM HS HD. destruct C65_float_bits as [B1 B2].
  apply (hdbscan_ok le vol perm T f32n_lt f32n_zero f32n_inf dl dv metric cap H MI NB (fun x => f32_bits (`x)) (fun a _ => B1 a) (fun a b _ _ _ _ => B2 a b)); done.
Qed.
Print Assumptions C65_single_precision.

(** The six points on a line of C27, with the mutual reachability distance; integer weights are their own bit patterns. *)
Example C65_example :
  MstInput zle line_vol line_perm line_tree Z.ltb 0%Z 1000%Z line_dl line_dv line_reach 64 5 /\ (N.of_nat (length line_perm) <= 2 ^ 30)%N /\
  (forall a, (a <? 0)%Z = false -> (a <? 1000)%Z = true -> (0 <= a < 2 ^ 31)%Z).
Proof.
  assert (ValidTree zle line_vol line_perm line_tree) as VT by (destruct line_index as [[H _]|[_ H]]; [simpl in H; lia|done]).
  split; [|split; [done|intros a Ha Hb; apply Z.ltb_ge in Ha; apply Z.ltb_lt in Hb; lia]]. apply C27_mutual_reachability; [apply C27_euclidean; try done|].
  - apply (bool_decide_unpack _). vm_compute. reflexivity.
  - cbn. lia.
  - constructor; intros; rewrite ?Z.ltb_ge, ?Z.ltb_lt in *; lia.
  - intros a Ha o v Hle. apply Z.ltb_ge. apply zdist_mono; [exact Hle|discriminate].
  - intros a b Ha Hb _. cbn in Ha, Hb. do 6 (destruct a as [|a]; [do 6 (destruct b as [|b]; [vm_compute; done|]); lia|]). lia.
  - apply (height_size zle line_vol line_perm line_tree VT 6 _ 0 5 None); [lia|]. apply VT.
  - lia.
  - intros a Ha. cbn in Ha. do 6 (destruct a as [|a]; [vm_compute; done|]). lia.
Qed.
(** An execution of the model: round robin, stores in ascending order, insertion sort. *)
Definition seq_hround (T : tree zbox) dl dv metric (par : list nat) (st : @dstate Z) : option (@dstate Z) :=
  let n := t_size T in let ts := concat (replicate 300 (seq 0 n)) in
  let labels := ls_labels (runl (lstep n par) (linit n (m_labels (d_m st))) ts) in
  progs ← mapM (radius_prog T dl metric labels) (seq 0 (n - 1));
  let s2 := runl (rstep Z.ltb) (RState (replicate n 1000%Z) progs) ts in
  let s3 := runl (nstep T Z.ltb 0%Z 1000%Z dl dv metric 64 true true labels (m_lower (d_m st)))
    (NState (r_radii s2) (replicate n 1000%Z) (replicate n (no_edge 1000%Z)) (replicate n NStart)) ts in
  edges ← reset_component_edges Z.ltb labels (n_weights s3) (n_edges s3);
  let out := BoruvkaModel.e_edges (runl (estep Z.ltb labels (n_weights s3)) (EState edges (replicate n EStart)) ts) in
  lower ← update_lower_bounds Z.ltb labels (m_lower (d_m st)) out;
  let s5 := runl (hstep labels out) (HState (m_num (d_m st)) (m_edges (d_m st)) (d_map st) (replicate n HStart)) ts in
  let s6 := runl (gstep labels out) (GState (h_map s5) (replicate n GStart)) ts in
  sided ← (if d_later st then update_sided Z.ltb labels (h_edges s5) (g_map s6) (d_sided st) (d_start st) (d_end st) else Some (d_sided st));
  parents ← (if d_later st then Some (d_parents st) else assign_vertex_parents T labels out (g_map s6) (seq 0 n) (d_parents st));
  let s7 := runl (bstep out) (BState labels (replicate n BStart)) ts in
  Some (DState (MState (b_labels s7) lower (h_edges s5) (h_num s5)) (g_map s6) sided parents (d_end st) (h_num s5) true).
Fixpoint insert_key (keys : list Z) (i : nat) (l : list nat) : list nat :=
  match l with [] => [i] | j :: l' => if (default 0 (keys !! i) <? default 0 (keys !! j))%Z then i :: l else j :: insert_key keys i l' end.
Definition seq_reorder (T : tree zbox) (st : @dstate Z) : option (list (nat * nat) * list Z * list Z) :=
  let edges := m_edges (d_m st) in
  let m := length edges in
  let sided := take (d_start st) (d_sided st) ++ replicate (d_end st - d_start st) root_chain_value ++ drop (d_end st) (d_sided st) in
  keys ← mapM (edge_key Z.ltb 1000%Z (fun x => x) edges sided) (seq 0 m);
  let permute := foldr (insert_key keys) [] (rev (seq 0 m)) in
  sorted ← mapM (fun i => keys !! i) permute;
  permute ← fix_order Z.ltb edges sorted (seq 0 (m - 1)) permute;
  rv ← rev_permute (seq 0 m) permute (replicate m 7);
  vp ← vertex_parents m rv (d_parents st);
  ep ← mapM (edge_parent edges sorted rv) (seq 0 m);
  es ← mapM (fun i => edges !! i) permute;
  fe ← mapM (finalize_edge T) es;
  Some (ends <$> fe, ep ++ vp, w_weight <$> es).
Definition hline_start : @dstate Z := DState line_start (replicate 6 77) (replicate 5 77%Z) (replicate 11 77%Z) 0 0 false.
Example C65_example_run :
  (st1 ← seq_hround line_tree line_dl line_dv line_reach label_par hline_start;
   st2 ← seq_hround line_tree line_dl line_dv line_reach label_par st1;
   seq_reorder line_tree st2) =
    Some ([(3, 1); (0, 1); (2, 0); (4, 5); (5, 2)], [1; 2; 4; 4; -1; 1; 0; 2; 0; 3; 3]%Z, [17; 17; 37; 36; 37]%Z).
Proof. vm_compute. reflexivity. Qed.
