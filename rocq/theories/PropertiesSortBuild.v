(** C01, C70, C99 together: the sort and the kernel of the hierarchy always deliver a tree, and the constructor with its own sort builds one that answers
    searches correctly. *)
From stdpp Require Import sorting.
From Coq Require Import Reals SpecFloat.
From Flocq Require Import Core IEEE754.BinarySingleNaN.
From Verif Require Import Base HeapSpec TreeSpec TraversalSpec GeomOps BoxModel BoxSpec MortonFloatModel BuildFloatModel IeeeSpec IeeeModel IeeeProof BuildFloatProof BuildFloatTreeProof.
From Verif Require Import TreeConstructionModel TraversalModel PropertiesTree PropertiesBox PropertiesTraversal PropertiesIeee PropertiesBuildFloat ReduceModel SortModel PropertiesReduce PropertiesSort.
Local Open Scope nat_scope.

Lemma exec_snoc {V} (join : V -> V -> V) bot vol perm m delta s ts s' t s'' :
  exec join bot vol perm m delta s ts s' -> step join bot vol perm m delta s' t = Some s'' -> exec join bot vol perm m delta s (ts ++ [t]) s''.
Proof. intros H. induction H as [s|s u s1 ts s2 E H IH]; intros Hs; simpl; [econstructor; [exact Hs|constructor]|econstructor; [exact E|by apply IH]]. Qed.
Lemma not_done {V} (s : state V) : all_done s \/ exists t p, st_pcs s !! t = Some p /\ p <> PDone.
Proof.
  unfold all_done. generalize (st_pcs s) as l. intros l. induction l as [|p l IH].
  - left. intros t p H. done.
  - destruct IH as [IH|(t & q & H & Hq)]; [|right; by exists (S t), q]. destruct (is_done p) eqn:E.
    + left. intros [|t] q H; simpl in H; [|by eapply IH]. injection H as <-. by destruct p.
    + right. exists 0, p. split; [done|]. by intros ->.
Qed.
(** The constructor always ends with a tree (so that what holds of every tree built holds of one). *)
Theorem C01_tree_exists : forall V (le : V -> V -> Prop) join bot vol w codes perm, JoinSemi le join bot -> (2 <= w)%Z -> length perm = length codes ->
  (Z.of_nat (length codes) <= 2 ^ (w - 1))%Z -> SortedCodes w codes -> exists T, built join bot vol w codes perm T.
Proof.
  intros V le join bot vol w codes perm JS Hw HL Hn HS. destruct perm as [|o [|o' perm]]; [by eexists|by eexists|]. remember (o :: o' :: perm) as pm eqn:Epm.
  assert (2 <= length codes) as H2 by (rewrite <- HL, Epm; simpl; lia).
  assert (forall k ts s, kernel_exec join bot vol w codes pm ts s -> length codes * (3 * length codes - 1) <= k + length ts -> exists ts' s', kernel_exec join bot vol w codes pm ts' s' /\ all_done s') as H.
  { induction k as [|k IH]; intros ts s He Hk; (destruct (not_done s) as [HD|(t & p & Ht & Hp)]; [by exists ts, s|]);
      destruct (C01_every_schedule_builds_valid_tree V le join bot vol w codes pm JS Hw H2 HL Hn HS ts s He) as (_ & Hstep & _);
      destruct (Hstep t p Ht Hp) as [s' Hs']; pose proof (exec_snoc _ _ _ _ _ _ _ _ _ _ _ He Hs') as He'.
    - destruct (C01_every_schedule_builds_valid_tree V le join bot vol w codes pm JS Hw H2 HL Hn HS _ _ He') as (Hb & _). rewrite app_length in Hb. simpl in Hb. lia.
    - apply (IH _ _ He'). rewrite app_length. simpl. lia. }
  destruct (H (length codes * (3 * length codes - 1)) [] (init_state (length codes - 1))) as (ts & s & He & HD); [constructor|lia|].
  destruct (C01_every_schedule_builds_valid_tree V le join bot vol w codes pm JS Hw H2 HL Hn HS ts s He) as (_ & _ & HT). destruct (HT HD) as (T & ET & _).
  exists T. rewrite Epm. cbn [built]. rewrite <- Epm. by exists ts, s.
Qed.
Print Assumptions C01_tree_exists.

(** The sort of the 64-bit codes delivers what C70 starts from, however the reduction to the least and the largest code was split ([p]), in whatever
    order the codes took their places in the bins, for every monotone assignment to bins and every sort inside them. *)
Definition code_bins (bin : nat -> Z -> Z -> Z -> nat) : Prop :=
  forall n lo hi x y, 1 <= n -> (lo < hi)%Z -> (lo <= x)%Z -> (x <= y)%Z -> (y <= hi)%Z -> bin n lo hi x <= bin n lo hi y <= n.
Definition sorts_by (codes : list Z) (within : list nat -> list nat) : Prop :=
  forall l, within l ≡ₚ l /\ forall i j a b x y, i < j -> within l !! i = Some a -> within l !! j = Some b -> codes !! a = Some x -> codes !! b = Some y -> (x <= y)%Z.
Theorem C99_codes : forall codes p bin order within, Forall (fun z => (0 <= z < 2 ^ 64)%Z) codes -> plan_of (length codes) p -> order ≡ₚ seq 0 (length codes) ->
  code_bins bin -> sorts_by codes within ->
  exists sorted perm, sort_objects Z.ltb Z.eqb (2 ^ 64 - 1, 0)%Z p bin order within codes = Some (sorted, perm) /\ sorted_by codes perm sorted.
Proof.
  intros codes p bin order within HR Hp Ho Hb Hw.
  destruct (C99_sort_objects Z.ltb Z.eqb Z_SW ltac:(intros x y; rewrite Z.eqb_eq, !Z.ltb_ge; lia) (2 ^ 64 - 1, 0)%Z p bin order within codes Hp Ho) as (sorted & perm & E & HP & [HL HM] & HA).
  - intros k Hk. rewrite Forall_forall in HR. specialize (HR k Hk). cbn [fst snd]. rewrite !Z.ltb_ge. lia.
  - intros n lo hi x y Hn. rewrite Z.ltb_lt, !Z.ltb_ge. intros. apply Hb; lia.
  - intros l. destruct (Hw l) as [H1 H2]. split; [done|]. intros i j a b x y Hij Ha Hb' Hx Hy. apply Z.ltb_ge. by eapply H2.
  - exists sorted, perm. split; [done|]. split; [done|]. split.
    + apply Forall2_same_length_lookup. split; [done|]. intros i q z Hq Hz. rewrite <- (HM i q Hq). done.
    + intros i a b Ha Hb'. assert (Z.ltb b a = false) as H; [|apply Z.ltb_ge in H; exact H]. eapply (HA i (S i)); [lia|done|done].
Qed.
Print Assumptions C99_codes.

(** From finite points to the searches, with no contract of the sort left: the constructor sorts, builds a tree, and every tree it may have built answers
    every search around a sphere with exactly the points whose computed distance is at most the radius, each once. *)
Theorem C70_sorted_points : forall f DIM pts t scene, f = binary32 \/ f = binary64 -> 2 <= DIM <= 10 -> Forall (finite_point (f_prec f) (f_emax f) DIM) pts -> pts <> [] ->
  (Z.of_nat (length pts) <= 2 ^ 63)%Z -> (forall i, i < length pts -> i ∈ red_values t) -> scene_box f DIM (map point_box pts) t = Some scene -> extents_finite f scene ->
  exists codes, codes64 f DIM scene pts = Some codes /\
  forall p bin order within, plan_of (length pts) p -> order ≡ₚ seq 0 (length pts) -> code_bins bin -> sorts_by codes within ->
  exists sorted perm, sort_objects Z.ltb Z.eqb (2 ^ 64 - 1, 0)%Z p bin order within codes = Some (sorted, perm) /\
  (exists T, float_tree (f_prec f) (f_emax f) DIM (fun i => point_box (point_at DIM pts i)) sorted perm T) /\
  forall T, float_tree (f_prec f) (f_emax f) DIM (fun i => point_box (point_at DIM pts i)) sorted perm T ->
  let F := FloatOps (f_prec f) (f_emax f) in let N := NumOps (f_prec f) (f_emax f) in
  forall c, finite_point (f_prec f) (f_emax f) DIM c ->
  (forall r, ieee_number (f_prec f) (f_emax f) r = true -> exists calls,
     spatial_query T (fun i => intersects_sp F c r (point_at DIM pts i)) (fun v => intersects_sb F c r (raw_box (f_prec f) (f_emax f) DIM v)) (fun out v => (out ++ [v], false)) [] = Ok calls /\
     NoDup calls /\ forall i, i ∈ calls <-> exists p, pts !! i = Some p /\ SFleb (distance_pp F c p) r = true) /\
  (forall k cap, 1 <= k -> 2 <= length pts ->
     let dl i := as_num (f_prec f) (f_emax f) (distance_pp F c (point_at DIM pts i)) in let dv v := as_num (f_prec f) (f_emax f) (distance_pb F c (raw_box (f_prec f) (f_emax f) DIM v)) in
     nearest_query T (o_ltb N) (o_zero N) (inf_num (f_prec f) (f_emax f)) dl dv k cap = Overflow \/
     exists out, nearest_query T (o_ltb N) (o_zero N) (inf_num (f_prec f) (f_emax f)) dl dv k cap = Ok out /\
       KNearest SFltb (S754_infinity false) (fun i => distance_pp F c (point_at DIM pts i)) k (seq 0 (length pts)) out).
Proof.
  intros f DIM pts t scene Hf HD HP Hne Hn Ht Hs HX. destruct (C70_points f DIM pts t scene Hf HD HP Hne Hn Ht Hs HX) as (codes & E & H). exists codes. split; [done|].
  destruct (C70_order f DIM pts t scene codes Hf HD HP Hne Ht Hs E) as (HL & HR & _).
  intros p bin order within Hp Ho Hb Hw. rewrite <- HL in Hp, Ho.
  destruct (C99_codes codes p bin order within) as (sorted & perm & ES & HS); try done.
  { apply Forall_lookup. intros i z Hz. specialize (HR i z Hz). lia. }
  exists sorted, perm. split; [done|].
  assert (length perm = length sorted) as HLp by (destruct HS as (_ & HF & _); by eapply Forall2_length).
  assert (length sorted = length pts) as HLs by (destruct HS as (HPm & _); rewrite <- HLp, HPm, seq_length; done).
  assert (SortedCodes 64 sorted) as HSC. { destruct (sorted_codes codes perm sorted) as [HSC _]; [apply Forall_lookup; exact HR|done|done]. }
  split.
  - destruct (fmt_params f Hf). apply (C01_tree_exists _ (ile (f_prec f) (f_emax f) DIM)); [apply ibox_join; done|lia|done|rewrite HLs; exact Hn|done].
  - intros T HT. by destruct (H perm sorted T HS HT) as (_ & _ & _ & HQ).
Qed.
Print Assumptions C70_sorted_points.

(** The five points of C70_example_codes, their codes sorted with the bins of C99_bins. *)
Lemma bins_ok : code_bins bin_op.
Proof. intros n lo hi x y Hn H1 H2 H3 H4. apply C99_bins; rewrite ?Z.ltb_lt, ?Z.ltb_ge; lia. Qed.
Lemma merge_sorts codes : sorts_by codes (merge_sort (by_key codes)).
Proof.
  intros l. split; [apply merge_sort_Permutation|]. intros i j a b x y Hij Ha Hb Hx Hy.
  assert (StronglySorted (by_key codes) (merge_sort (by_key codes) l)) as HS.
  { apply StronglySorted_merge_sort; [intros u v w; unfold by_key; lia|intros u v; unfold by_key; lia]. }
  assert (by_key codes a b) as H; [|unfold by_key in H; rewrite Hx, Hy in H; exact H].
  clear - HS Hij Ha Hb. revert i j Hij Ha Hb. induction HS as [|c m HS IH HF]; intros i j Hij Ha Hb; [done|].
  destruct j as [|j]; [lia|]. destruct i as [|i]; simpl in *; [injection Ha as ->; rewrite Forall_forall in HF; apply HF; by eapply elem_of_list_lookup_2|]. eapply IH; [|exact Ha|exact Hb]. lia.
Qed.
Example C70_sorted_example : plan_of 5 (sort_plan 5) /\ [4; 1; 0; 3; 2] ≡ₚ seq 0 5 /\ code_bins bin_op /\ sorts_by bf_codes (merge_sort (by_key bf_codes)) /\
  sort_objects Z.ltb Z.eqb (2 ^ 64 - 1, 0)%Z (sort_plan 5) bin_op [4; 1; 0; 3; 2] (merge_sort (by_key bf_codes)) bf_codes = Some (bf_sorted, bf_perm).
Proof.
  split; [vm_compute; reflexivity|]. split; [apply (bool_decide_unpack _); vm_compute; reflexivity|]. split; [apply bins_ok|]. split; [apply merge_sorts|]. vm_compute. reflexivity.
Qed.
