(** C27, C64: the minimum spanning tree (src/cluster/ArborX_MinimumSpanningTree.hpp, detail/ArborX_BoruvkaHelpers.hpp). *)
From Verif Require Import BoruvkaProof PropertiesTraversal PropertiesLabel PropertiesGrid BoxFloatModel.
From Coq Require Import SpecFloat.
Local Open Scope nat_scope.

(** For every tree whose height fits the traversal stack, every symmetric weight which is not below the distance of the
    geometries, lies between zero and infinity, with any number of ties; for both settings of the two optimisations, any content
    of the uninitialised arrays and every interleaving of every kernel: no thread is ever stuck (an access out of bounds, a full
    stack) or runs forever, at most log2(n) rounds are made, and the n - 1 edges with the weights of their end points form a
    minimum spanning tree, whatever monotone numerical reading of the weights is used. *)
Theorem C27_minimum_spanning_tree :
  forall V W (le : V -> V -> Prop) vol perm (T : tree V) (ltb : W -> W -> bool) zero inf dl dv metric cap H,
  MstInput le vol perm T ltb zero inf dl dv metric cap H ->
  forall shared bounded order par0 garbage edges0,
  order ≡ₚ seq 0 (2 * (length perm - 1)) -> length par0 = 2 * length perm - 1 ->
  length garbage = length perm - 1 -> length edges0 = length perm - 1 ->
  mst T ltb zero inf dl dv metric cap shared bounded (Nat.log2 (length perm)) order par0 garbage edges0 (fun es =>
    length es = length perm - 1 /\
    (forall e, e ∈ es -> weq ltb (w_weight e) (pair_weight dl metric (ends e).1 (ends e).2) = true) /\
    forall val : W -> Q, (forall x y, ltb y x = false -> (val x <= val y)%Q) -> (0 <= val zero)%Q ->
      MinimumSpanningTree (length perm) (fun a b => val (pair_weight dl metric a b)) (ends <$> es)).
Proof.
  intros V W le vol perm T ltb zero inf dl dv metric cap H MI shared bounded order par0 garbage edges0 HO HP HG HE.
  eapply mst_weaken; [|by apply (mst_ok le vol perm T ltb zero inf dl dv metric cap H MI)]. intros es HR. split; [|split].
  - destruct HR as (F & _ & HF & _ & _ & Ee & _). rewrite <- HF, <- (fmap_length ends es), Ee. apply fmap_length.
  - destruct HR as (F & _ & _ & _ & _ & _ & HW). exact HW.
  - intros val Hm Hz. exact (result_mst le vol perm T ltb zero inf dl dv metric cap H MI es val Hm Hz HR).
Qed.
Print Assumptions C27_minimum_spanning_tree.

(** Among several minimum spanning trees the same one is found by every schedule, by both settings of the two optimisations and from
    every initial content of the arrays. *)
Theorem C27_schedule_independent :
  forall V W (le : V -> V -> Prop) vol perm (T : tree V) (ltb : W -> W -> bool) zero inf dl dv metric cap H,
  MstInput le vol perm T ltb zero inf dl dv metric cap H ->
  exists K : nat -> nat -> Prop, forall shared bounded fuel order par0 garbage edges0,
  Nat.log2 (length perm) <= fuel ->
  order ≡ₚ seq 0 (2 * (length perm - 1)) -> length par0 = 2 * length perm - 1 ->
  length garbage = length perm - 1 -> length edges0 = length perm - 1 ->
  mst T ltb zero inf dl dv metric cap shared bounded fuel order par0 garbage edges0 (fun es =>
    forall a b, (a, b) ∈ (ends <$> es) \/ (b, a) ∈ (ends <$> es) <-> K a b).
Proof.
  intros V W le vol perm T ltb zero inf dl dv metric cap H MI.
  exists (fun a b => exists p, Kruskal (length perm) (plt ltb (wt perm dl metric)) p /\ (ren perm p = (a, b) \/ ren perm p = (b, a))).
  intros shared bounded fuel order par0 garbage edges0 Hf HO HP HG HE.
  eapply mst_weaken; [|by apply (mst_ok le vol perm T ltb zero inf dl dv metric cap H MI)].
  intros es (F & HNR & HL & HSp & HK & Ee & _) a b. rewrite Ee, !elem_of_list_fmap. split.
  - intros [(p & E1 & Hp)|(p & E1 & Hp)]; exists p; (split; [by apply HK|]); [left|right]; done.
  - intros (p & Hp & Ep).
    pose proof (plt_order ltb (mi_sw _ _ _ _ _ _ _ _ _ _ _ _ MI) (wt perm dl metric) (length perm) (mi_size _ _ _ _ _ _ _ _ _ _ _ _ MI) (wt_sym le vol perm T ltb zero inf dl dv metric cap H MI)) as PO.
    destruct (kruskal_all (length perm) _ PO F HSp HK p Hp) as (q & Hq & [->| ->]).
    + destruct Ep as [Ep|Ep]; [left|right]; exists p; done.
    + unfold ren in *. destruct Ep as [[= E1 E2]|[= E1 E2]]; [right|left]; exists (p.2, p.1); (split; [|done]); cbn; congruence.
Qed.
Print Assumptions C27_schedule_independent.

(** The two metrics of the library meet the conditions. *)
Theorem C27_euclidean :
  forall V W (le : V -> V -> Prop) vol perm (T : tree V) (ltb : W -> W -> bool) zero inf dl dv cap H,
  ValidTree le vol perm T -> perm ≡ₚ seq 0 (length perm) -> 2 <= length perm -> (N.of_nat (length perm) <= 2 ^ 31)%N -> StrictWeak ltb ->
  (forall a, a < length perm -> DistSafe le vol ltb (dl a) (dv a)) ->
  (forall a b, a < length perm -> b < length perm -> a <> b ->
    dl a b = dl b a /\ ltb (dl a b) zero = false /\ ltb (dl a b) inf = true) ->
  HeightLe T (getRoot T) H -> H <= cap ->
  MstInput le vol perm T ltb zero inf dl dv euclidean cap H.
Proof.
  intros V W le vol perm T ltb zero inf dl dv cap H VT HP H2 Hs SW HD Hd HH HC. constructor; try done; unfold pair_weight, euclidean.
  - intros. apply (sw_irrefl _ SW).
  - intros a b Ha Hb Hne. rewrite (proj1 (Hd a b Ha Hb Hne)). apply (weq_refl ltb SW).
  - intros a b Ha Hb Hne. apply (Hd a b Ha Hb Hne).
  - intros a b Ha Hb Hne. apply (Hd a b Ha Hb Hne).
Qed.
Theorem C27_mutual_reachability :
  forall V W (le : V -> V -> Prop) vol perm (T : tree V) (ltb : W -> W -> bool) zero inf dl dv core cap H,
  MstInput le vol perm T ltb zero inf dl dv euclidean cap H ->
  (forall a, a < length perm -> ltb (core a) inf = true) ->
  MstInput le vol perm T ltb zero inf dl dv (mutual_reachability ltb core) cap H.
Proof.
  intros V W le vol perm T ltb zero inf dl dv core cap H [VT HP H2 Hs SW HD Hm Hsy Hz Hi HH HC] Hcore.
  assert (Hup : forall x y z, ltb (wmax ltb x y) z = false <-> ltb x z = false \/ ltb y z = false).
  { intros x y z. unfold wmax. destruct (ltb x y) eqn:E1; split; try tauto; intros [E2|E2]; try done.
    - apply (w_trans ltb SW z x y); [done|]. by apply (w_asym ltb SW).
    - by apply (w_trans ltb SW z y x). }
  constructor; try done; unfold pair_weight, mutual_reachability, euclidean in *.
  - intros a b Ha Hb Hne. rewrite Hup. right. apply (sw_irrefl _ SW).
  - intros a b Ha Hb Hne. specialize (Hsy a b Ha Hb Hne). apply weq_true in Hsy as [S1 S2]. apply weq_true.
    assert (Hlo : forall x y z, ltb z x = false -> ltb z y = false -> ltb z (wmax ltb x y) = false) by (intros x y z; unfold wmax; by destruct (ltb x y)).
    pose proof (sw_irrefl _ SW) as Hir. split; (apply Hlo; [apply Hlo|]); rewrite !Hup; auto.
  - intros a b Ha Hb Hne. rewrite Hup. right. by apply Hz.
  - intros a b Ha Hb Hne. unfold wmax. destruct (ltb (core a) (core b)); destruct (ltb _ (dl a b)); auto.
Qed.
Print Assumptions C27_euclidean.
Print Assumptions C27_mutual_reachability.

(** Six points on a line with two equal ones; squared distances as weights. *)
Definition line_dl (a b : nat) : Z := zdist (nth a [5; 1; 9; 1; 20; 14]%Z 0%Z, 0, 0)%Z (line_vol b).
Definition line_dv (a : nat) (v : zbox) : Z := zdist (nth a [5; 1; 9; 1; 20; 14]%Z 0%Z, 0, 0)%Z v.
Definition line_reach : nat -> nat -> Z -> Z := mutual_reachability Z.ltb (fun i => nth i [16; 17; 37; 17; 36; 36]%Z 0%Z).
Example C27_example : MstInput zle line_vol line_perm line_tree Z.ltb 0%Z zbig line_dl line_dv euclidean 64 5 /\
  MstInput zle line_vol line_perm line_tree Z.ltb 0%Z zbig line_dl line_dv line_reach 64 5 /\
  label_order ≡ₚ seq 0 (2 * (length line_perm - 1)).
Proof.
  assert (ValidTree zle line_vol line_perm line_tree) as VT by (destruct line_index as [[H _]|[_ H]]; [simpl in H; lia|done]).
  assert (MstInput zle line_vol line_perm line_tree Z.ltb 0%Z zbig line_dl line_dv euclidean 64 5) as MI.
  { apply C27_euclidean; try done.
    - apply (bool_decide_unpack _). vm_compute. reflexivity.
    - cbn. lia.
    - constructor; intros; rewrite ?Z.ltb_ge, ?Z.ltb_lt in *; lia.
    - intros a Ha o v Hle. apply Z.ltb_ge. apply zdist_mono; [exact Hle|discriminate].
    - intros a b Ha Hb _. cbn in Ha, Hb. do 6 (destruct a as [|a]; [do 6 (destruct b as [|b]; [vm_compute; done|]); lia|]). lia.
    - apply (height_size zle line_vol line_perm line_tree VT 6 _ 0 5 None); [lia|]. apply VT.
    - lia. }
  split; [exact MI|]. split.
  - apply C27_mutual_reachability; [exact MI|]. intros a Ha. cbn in Ha. do 6 (destruct a as [|a]; [vm_compute; done|]). lia.
  - apply (bool_decide_unpack _). vm_compute. reflexivity.
Qed.
(** Executions of the model on these inputs: one round for the first; two for the second, with ties at 17 and 37. *)
Definition seq_round (T : tree zbox) dl dv metric (par : list nat) (st : @mstate Z) : option (@mstate Z) :=
  let n := t_size T in let ts := concat (replicate 300 (seq 0 n)) in
  let labels := ls_labels (runl (lstep n par) (linit n (m_labels st)) ts) in
  progs ← mapM (radius_prog T dl metric labels) (seq 0 (n - 1));
  let s2 := runl (rstep Z.ltb) (RState (replicate n zbig) progs) ts in
  let s3 := runl (nstep T Z.ltb 0%Z zbig dl dv metric 64 true true labels (m_lower st))
    (NState (r_radii s2) (replicate n zbig) (replicate n (no_edge zbig)) (replicate n NStart)) ts in
  edges ← reset_component_edges Z.ltb labels (n_weights s3) (n_edges s3);
  let out := e_edges (runl (estep Z.ltb labels (n_weights s3)) (EState edges (replicate n EStart)) ts) in
  lower ← update_lower_bounds Z.ltb labels (m_lower st) out;
  let s5 := runl (astep labels out) (AState (m_num st) (m_edges st) (replicate n AStart)) ts in
  let s6 := runl (bstep out) (BState labels (replicate n BStart)) ts in
  Some (MState (b_labels s6) lower (a_edges s5) (a_num s5)).
Definition line_start : @mstate Z := MState (map Z.of_nat (seq 0 6) ++ replicate 5 77%Z) (replicate 6 0%Z) (replicate 5 (WEdge 0 0 0%Z)) 0.
Example C27_example_run :
  (st1 ← seq_round line_tree line_dl line_dv euclidean label_par line_start; es ← mapM (finalize_edge line_tree) (m_edges st1); Some (m_num st1, ends <$> es)) =
    Some (5, [(3, 1); (0, 1); (2, 0); (5, 2); (4, 5)]) /\
  (st1 ← seq_round line_tree line_dl line_dv line_reach label_par line_start;
   st2 ← seq_round line_tree line_dl line_dv line_reach label_par st1;
   es ← mapM (finalize_edge line_tree) (m_edges st2); Some (m_num st1, m_num st2, (fun e => (ends e, w_weight e)) <$> es)) =
    Some (4, 5, [(3, 1, 17%Z); (0, 1, 17%Z); (2, 0, 37%Z); (4, 5, 36%Z); (5, 2, 37%Z)]).
Proof. split; vm_compute; reflexivity. Qed.

(** ** C64: points with finite coordinates whose distance overflows *)
(** expand(box, box), in single precision; the neutral box is the one of the default constructor *)
Definition f_join (a b : fbox) : fbox := zip_with (fun '(l, h) '(l', h') => (if SFltb l' l then l' else l, if SFltb h h' then h' else h)) a b.
Definition f_bot : fbox := replicate 3 (f32_max, f32_min).
Definition far_points : list fpoint := [[f32_zero; f32_zero; f32_zero]; [S754_finite false 8388608 47; f32_zero; f32_zero]].
Definition far (a : nat) : fpoint := nth a far_points [].
Definition far_vol (a : nat) : fbox := (fun x => (x, x)) <$> far a.
Definition far_tree : tree fbox := default empty_tree (build_seq f_join f_bot far_vol 64 [0; 1]%Z [0; 1]).
Definition is_finite (x : spec_float) : Prop := match x with S754_zero _ | S754_finite _ _ _ => True | _ => False end.
(** The points 0 and 2^70 on an axis: the sum of squares overflows, no thread finds an edge, and the component's edge still holds
    its initial value, whose target is 2^31 - 1: labels is read out of bounds, for every setting of the optimisations. *)
Theorem C64_finite_points_refuted :
  exists (pts : nat -> fpoint) (T : tree fbox),
    (forall a, a < 2 -> length (pts a) = 3 /\ Forall is_finite (pts a)) /\
    built f_join f_bot (fun a => (fun x => (x, x)) <$> pts a) 64 [0; 1]%Z [0; 1] T /\
    forall shared bounded fuel, ~ mst T SFltb f32_zero f32_inf (fun a b => f_distance_pp (pts a) (pts b)) (fun a v => f_distance_pb (pts a) v) euclidean 64 shared bounded
      fuel [0; 1] [0; 0; 0] [0%Z] [WEdge 0 0 f32_zero] (fun _ => True).
Proof.
  exists far, far_tree. split; [|split].
  { intros a Ha. destruct a as [|[|a]]; [| |lia]; (split; [done|]); repeat constructor. }
  { apply build_seq_built; [simpl; lia|]. vm_compute. reflexivity. }
  intros shared bounded [|fuel]; [intros HM; unfold mst in HM; destruct (findParents _ _ _); exact HM|].
  unfold mst. replace (findParents far_tree [0; 1] [0; 0; 0]) with (Some [2; 2; 0]) by (vm_compute; reflexivity). cbn [boruvka]. unfold round. change (t_size far_tree) with 2. intros HK.
  apply (Kernel_run _ _ _ _ (concat (replicate 9 [0; 1]))) in HK.
  2: { intros t (pc & Ht & Hne). revert Hne. apply (all_lookup (fun pc => ~ pc <> LDone) _ t _) in Ht; [done|]. vm_compute. repeat constructor; intros H; by apply H. }
  cbn beta zeta in HK.
  replace (ls_labels _) with [0; 1; -1]%Z in HK by (vm_compute; reflexivity).
  replace (mapM _ (seq 0 (2 - 1))) with (Some [[(0, f32_inf); (1, f32_inf)]]) in HK by (vm_compute; reflexivity).
  apply (Kernel_run _ _ _ _ [0; 0; 0]) in HK.
  2: { intros t (p & rest & Ht). apply (all_lookup (fun l => l = []) _ t _) in Ht; [done|]. vm_compute. repeat constructor. }
  cbn beta in HK. replace (r_radii _) with [f32_inf; f32_inf] in HK by (vm_compute; reflexivity).
  apply (Kernel_run _ _ _ _ (concat (replicate 30 [0; 1]))) in HK.
  2: { intros t (pc & Ht & Hne). revert Hne. apply (all_lookup (fun pc => ~ pc <> NDone) _ t _) in Ht; [done|].
       destruct shared, bounded; vm_compute; repeat constructor; intros H; by apply H. }
  cbn beta in HK. revert HK. match goal with |- context [n_weights ?x] => replace (n_weights x) with [f32_inf; f32_inf] by (destruct shared, bounded; vm_compute; reflexivity);
    replace (n_edges x) with (replicate 2 (no_edge f32_inf)) by (destruct shared, bounded; vm_compute; reflexivity) end. intros HK.
  replace (reset_component_edges _ _ _ _) with (Some (replicate 2 (no_edge f32_inf))) in HK by (vm_compute; reflexivity).
  apply (Kernel_run _ _ _ _ (concat (replicate 9 [0; 1]))) in HK.
  2: { intros t (pc & Ht & Hne). revert Hne. apply (all_lookup (fun pc => ~ pc <> EDone) _ t _) in Ht; [done|]. vm_compute. repeat constructor; intros H; by apply H. }
  cbn beta zeta in HK. replace (e_edges _) with (replicate 2 (no_edge f32_inf)) in HK by (vm_compute; reflexivity).
  destruct (if bounded then _ else _); [|done]. destruct HK as [b HK]. destruct (HK [] _ ltac:(constructor)) as (_ & HL & _).
  destruct (HL 0) as [s Hs]; [by exists AStart|]. clear HK HL.
  assert (next_of (replicate 2 (no_edge f32_inf)) [0; 1; -1]%Z 0 = None) as HN.
  { unfold next_of. change (replicate 2 (no_edge f32_inf) !! 0) with (Some (no_edge f32_inf)). cbn [mbind option_bind].
    replace (target (directed_edge (no_edge f32_inf))) with 2147483647%N by (vm_compute; reflexivity). by rewrite lookup_ge_None_2 by (cbn [length]; lia). }
  unfold astep, next_component in Hs. cbn [a_thr replicate lookup list_lookup mbind option_bind component] in Hs.
  change (label_index 0) with (Some 0) in Hs. cbn [mbind option_bind Nat.eqb negb] in Hs.
  change [no_edge f32_inf; no_edge f32_inf] with (replicate 2 (no_edge f32_inf)) in Hs. rewrite HN in Hs. cbn [mbind option_bind] in Hs. discriminate Hs.
Qed.
Print Assumptions C64_finite_points_refuted.
