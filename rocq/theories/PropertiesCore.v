(** C66: hdbscan (src/cluster/ArborX_HDBSCAN.hpp) from the built tree to the dendrogram: core distances, minimum spanning tree,
    dendrogram by either implementation. *)
From Verif Require Import HdbscanProof CoreProof PropertiesBoruvka PropertiesTraversal PropertiesLabel PropertiesHdbscan.
Local Open Scope nat_scope.

Section Hdbscan.
Context {V W : Type} (le : V -> V -> Prop) (vol : nat -> V) (perm : list nat) (T : tree V)
  (ltb : W -> W -> bool) (zero inf : W) (dl : nat -> nat -> W) (dv : nat -> V -> W) (cap H : nat).
(** A tree over at least two and at most 2^30 points (C01) of height at most the traversal stack; the distance of a point and a
    node never exceeds that of the point and a leaf below; distances, also of a point and itself, are symmetric, non-negative
    and finite. *)
Record HdbscanInput : Prop := {
  hi_valid : ValidTree le vol perm T;
  hi_perm : perm ≡ₚ seq 0 (length perm);
  hi_two : 2 <= length perm;
  hi_size : (N.of_nat (length perm) <= 2 ^ 30)%N;
  hi_sw : StrictWeak ltb;
  hi_safe : forall a, a < length perm -> DistSafe le vol ltb (dl a) (dv a);
  hi_dist : forall a b, a < length perm -> b < length perm -> dl a b = dl b a /\ ltb (dl a b) zero = false /\ ltb (dl a b) inf = true;
  hi_height : HeightLe T (getRoot T) H;
  hi_cap : H <= cap }.

Lemma hi_mst : HdbscanInput -> MstInput le vol perm T ltb zero inf dl dv euclidean cap H.
Proof. intros [HV HP H2 HS SW HD Hd HH HC]. apply C27_euclidean; try done. eapply N.le_trans; [exact HS|done]. intros a b Ha Hb _. by apply Hd. Qed.

Lemma wmax_greatest : StrictWeak ltb -> forall a b c, Greatest ltb a b c (wmax ltb (wmax ltb a b) c).
Proof.
  intros SW a b c. unfold Greatest, wmax. pose proof (sw_irrefl _ SW) as Hi. destruct (ltb a b) eqn:E1.
  - pose proof (w_asym ltb SW _ _ E1). destruct (ltb b c) eqn:E2; (split; [auto|]); split_and!; auto; apply (w_asym ltb SW) in E2; auto. by apply (w_trans ltb SW _ b).
  - destruct (ltb a c) eqn:E2; (split; [auto|]); split_and!; auto; apply (w_asym ltb SW) in E2; auto. by apply (w_trans ltb SW _ a).
Qed.
End Hdbscan.

(** For every such input, every k, both settings of the two optimisations of the search, any content of the uninitialised arrays,
    every interleaving of every kernel and every order of equal sort keys: no thread is stuck or runs forever, and both
    implementations return a single-linkage dendrogram of the points under the distance [reach].  [reach a b] is the distance
    of a and b if k <= 1, and otherwise the greatest of that distance and the distances of a and of b to their k-th nearest
    points (themselves included; all n points if k > n). *)
Theorem C66_hdbscan :
  forall V W (le : V -> V -> Prop) vol perm (T : tree V) (ltb : W -> W -> bool) zero inf dl dv cap H,
  HdbscanInput le vol perm T ltb zero inf dl dv cap H ->
  forall k, exists reach : nat -> nat -> W,
  (k <= 1 -> forall a b, reach a b = dl a b) /\
  (1 < k -> exists core, (forall a, a < length perm -> KthDistance ltb (dl a) (length perm) (min k (length perm)) (core a)) /\
    forall a b, Greatest ltb (core a) (core b) (dl a b) (reach a b)) /\
  forall shared bounded order par0 garbage edges0,
  order ≡ₚ seq 0 (2 * (length perm - 1)) -> length par0 = 2 * length perm - 1 ->
  length garbage = length perm - 1 -> length edges0 = length perm - 1 ->
  hdbscan_union_find T ltb zero inf dl dv cap shared bounded k (Nat.log2 (length perm)) order par0 garbage edges0 (Dendrogram ltb (length perm) reach) /\
  forall (bits : W -> Z) map0 sided0 parents0,
  (forall a, ltb a zero = false -> ltb a inf = true -> (0 <= bits a < 2 ^ 31)%Z) ->
  (forall a b, ltb a zero = false -> ltb a inf = true -> ltb b zero = false -> ltb b inf = true -> ltb a b = (bits a <? bits b)%Z) ->
  length map0 = length perm -> length sided0 = length perm - 1 -> length parents0 = 2 * length perm - 1 ->
  hdbscan_boruvka T ltb zero inf dl dv cap bits shared bounded k (Nat.log2 (length perm)) order par0 garbage edges0 map0 sided0 parents0 (Dendrogram ltb (length perm) reach).
Proof.
  intros V W le vol perm T ltb zero inf dl dv cap H HI k. pose proof (hi_mst _ _ _ _ _ _ _ _ _ _ _ HI) as ME.
  assert (Hboth : forall metric, MstInput le vol perm T ltb zero inf dl dv metric cap H ->
    forall shared bounded order par0 garbage edges0,
    order ≡ₚ seq 0 (2 * (length perm - 1)) -> length par0 = 2 * length perm - 1 ->
    length garbage = length perm - 1 -> length edges0 = length perm - 1 ->
    mst T ltb zero inf dl dv metric cap shared bounded (Nat.log2 (length perm)) order par0 garbage edges0 (fun es => dendrogram_of ltb es (Dendrogram ltb (length perm) (pair_weight dl metric))) /\
    forall (bits : W -> Z) map0 sided0 parents0,
    (forall a, ltb a zero = false -> ltb a inf = true -> (0 <= bits a < 2 ^ 31)%Z) ->
    (forall a b, ltb a zero = false -> ltb a inf = true -> ltb b zero = false -> ltb b inf = true -> ltb a b = (bits a <? bits b)%Z) ->
    length map0 = length perm -> length sided0 = length perm - 1 -> length parents0 = 2 * length perm - 1 ->
    hdbscan T ltb zero inf dl dv metric cap shared bounded bits (Nat.log2 (length perm)) order par0 garbage edges0 map0 sided0 parents0
      (fun _ par heights => Dendrogram ltb (length perm) (pair_weight dl metric) par heights)).
  { intros metric MI shared bounded order par0 garbage edges0 HO HP HG HE. split.
    - eapply mst_weaken; [|by apply (mst_ok le vol perm T ltb zero inf dl dv metric cap H MI)]. intros es HR. by apply (union_find_ok le vol perm T ltb zero inf dl dv metric cap H MI).
    - intros bits map0 sided0 parents0 B1 B2 HM HS HD. apply (hdbscan_ok le vol perm T ltb zero inf dl dv metric cap H MI (hi_size _ _ _ _ _ _ _ _ _ _ _ HI) bits B1 B2); done. }
  unfold hdbscan_union_find, hdbscan_boruvka, with_metric. destruct (Nat.ltb_spec 1 k) as [Hk|Hk].
  - destruct (core_distances_ok le vol perm T ltb zero inf dl dv cap H ME (hi_dist _ _ _ _ _ _ _ _ _ _ _ HI) k) as (cs & -> & Hcs); [lia|]. set (core := fun i => default zero (cs !! i)).
    exists (pair_weight dl (mutual_reachability ltb core)). split; [lia|]. split.
    + intros _. exists core. split; [intros a Ha; by apply Hcs|]. intros a b. apply wmax_greatest. apply (hi_sw _ _ _ _ _ _ _ _ _ _ _ HI).
    + apply Hboth. apply C27_mutual_reachability; [done|]. intros a Ha. by apply Hcs.
  - exists (pair_weight dl euclidean). split; [done|]. split; [lia|]. by apply Hboth.
Qed.
Print Assumptions C66_hdbscan.

(** Six points on a line of C27 satisfy the hypotheses; k = 2, 3 and more points than there are. *)
Example C66_example : HdbscanInput zle line_vol line_perm line_tree Z.ltb 0%Z 1000%Z line_dl line_dv 64 5.
Proof.
  assert (ValidTree zle line_vol line_perm line_tree) as VT by (destruct line_index as [[H _]|[_ H]]; [simpl in H; lia|done]).
  constructor; try done.
  - apply (bool_decide_unpack _). vm_compute. reflexivity.
  - cbn. lia.
  - constructor; intros; rewrite ?Z.ltb_ge, ?Z.ltb_lt in *; lia.
  - intros a Ha o v Hle. apply Z.ltb_ge. apply zdist_mono; [exact Hle|discriminate].
  - intros a b Ha Hb. cbn in Ha, Hb. do 6 (destruct a as [|a]; [do 6 (destruct b as [|b]; [vm_compute; done|]); lia|]). lia.
  - apply (height_size zle line_vol line_perm line_tree VT 6 _ 0 5 None); [lia|]. apply VT.
  - lia.
Qed.
Example C66_example_core :
  core_distances line_tree Z.ltb 0%Z 1000%Z line_dl line_dv 64 2 = Some [16; 0; 16; 0; 36; 25]%Z /\
  core_distances line_tree Z.ltb 0%Z 1000%Z line_dl line_dv 64 3 = Some [16; 16; 25; 16; 121; 36]%Z /\
  core_distances line_tree Z.ltb 0%Z 1000%Z line_dl line_dv 64 100 = Some [225; 361; 121; 361; 361; 169]%Z.
Proof. vm_compute. done. Qed.
(** The dendrogram of the spanning tree of C27_example_run, its edges sorted by weight. *)
Example C66_example_dendrogram :
  (par ← DendrogramModel.dendrogram [(1, 3); (0, 1); (2, 0); (5, 2); (4, 5)]; mapM (fun p => p) par) = Some [1; 2; 3; 4; -1; 1; 0; 2; 0; 4; 3]%Z.
Proof. vm_compute. reflexivity. Qed.
