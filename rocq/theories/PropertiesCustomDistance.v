(** C104: the nearest query of the custom distance example. *)
From Verif Require Import TreeConstructionProof DeltaProof TraversalProof PropertiesTree TraversalSpec PropertiesTraversal.
From Verif Require Import Base GeomOps BoxModel MortonFloatModel BuildFloatModel CustomDistanceModel.
Local Open Scope nat_scope.

(** The point q lies in the box b. *)
Definition InRect (q : pt) (b : rect) : Prop := (b.1.1 <= q.1 <= b.1.2 /\ b.2.1 <= q.2 <= b.2.2)%Z.

(** ** C104, false: the distance to a box exceeds the distance to a point inside it. *)
Theorem C104_lower_bound_refuted : exists p b q, InRect q b /\ (custom_distance p q < custom_box_distance p b)%Z.
Proof. exists (5, 30)%Z, ((0, 1), (30, 30))%Z, (1, 30)%Z. unfold InRect. split; [simpl; lia|]. vm_compute. reflexivity. Qed.

(** The distances as the traversal uses them; boxes are three-dimensional in PropertiesTraversal, with z = 0 here. *)
Definition point_vol (pts : nat -> pt) (o : nat) : zbox := pt3 (pts o).1 (pts o).2 0.
Definition box_with (dist : pt -> rect -> Z) (q : pt) (v : zbox) : Z :=
  match v with None => 0%Z | Some (x, y, _) => dist q (x, y) end.

(** ** ... and a nearest query can return a point that is not the nearest.  The tree is the one built from the Morton codes
    of the four points. *)
Definition four (o : nat) : pt := nth o [(5, 0); (6, 0); (0, 30); (1, 30)]%Z (0, 0)%Z.
Definition four_perm : list nat := [2; 3; 0; 1].
Definition four_codes : list Z := [1537228672809129301; 1690951540090043733; 2920734478337343488; 3074457345618258602]%Z.
Definition four_tree : tree zbox := default empty_tree (build_seq zjoin None (point_vol four) 64 four_codes four_perm).
Definition float_pt (p : pt) : list SpecFloat.spec_float := [f_int binary32 p.1; f_int binary32 p.2].
Definition float_scene (xl xh yl yh : Z) : list (SpecFloat.spec_float * SpecFloat.spec_float) :=
  [(f_int binary32 xl, f_int binary32 xh); (f_int binary32 yl, f_int binary32 yh)].

Lemma four_index : Index zle (point_vol four) four_perm four_tree.
Proof.
  apply (C01_index_over_any_number_of_values _ zle zjoin None (point_vol four) 64 four_codes);
    [apply zbox_JoinSemi|lia|reflexivity|simpl; lia|apply sorted_codesb_ok; vm_compute; reflexivity|].
  apply build_seq_built; [simpl; lia|]. vm_compute. reflexivity.
Qed.
Theorem C104_nearest_refuted : exists pts perm codes T q a b,
  codes64 binary32 2 (float_scene 0 6 0 30) (map (fun o => float_pt (pts o)) perm) = Some codes /\
  perm ≡ₚ seq 0 4 /\ built zjoin None (point_vol pts) 64 codes perm T /\ Index zle (point_vol pts) perm T /\
  nearest_query T Z.ltb 0%Z zbig (fun o => custom_distance q (pts o)) (box_with custom_box_distance q) 1 64 = Ok [a] /\
  b ∈ perm /\ (custom_distance q (pts b) < custom_distance q (pts a))%Z.
Proof.
  exists four, four_perm, four_codes, four_tree, (5, 30)%Z, 0, 3.
  split; [vm_compute; reflexivity|]. split; [apply (bool_decide_unpack _); vm_compute; reflexivity|].
  split; [apply build_seq_built; [simpl; lia|]; vm_compute; reflexivity|]. split; [apply four_index|].
  split; [vm_compute; reflexivity|]. split; [apply (bool_decide_unpack _); vm_compute; reflexivity|]. vm_compute. reflexivity.
Qed.

(** ** With the other component for the second coordinate the distance is the least one to a point of the box, *)
Theorem C104_fixed_exact : forall p b, (b.1.1 <= b.1.2)%Z -> (b.2.1 <= b.2.2)%Z ->
  (forall q, InRect q b -> (fixed_box_distance p b <= custom_distance p q)%Z) /\
  (exists q, InRect q b /\ fixed_box_distance p b = custom_distance p q).
Proof.
  intros [x y] [[xl xh] [yl yh]]. unfold InRect, fixed_box_distance, custom_distance, clamp. cbn [fst snd]. intros Hx Hy. split.
  - intros [u v] [Hu Hv]. cbn [fst snd] in *. destruct (Z.ltb_spec x xl), (Z.ltb_spec xh x), (Z.ltb_spec y yl), (Z.ltb_spec yh y); lia.
  - exists (clamp x (xl, xh), clamp y (yl, yh)). unfold clamp. cbn [fst snd].
    destruct (Z.ltb_spec x xl), (Z.ltb_spec xh x), (Z.ltb_spec y yl), (Z.ltb_spec yh y); split; lia.
Qed.
Lemma fixed_safe pts q : DistSafe zle (point_vol pts) Z.ltb (fun o => custom_distance q (pts o)) (box_with fixed_box_distance q).
Proof.
  intros o v Hle. apply Z.ltb_ge. unfold point_vol, pt3, box_with, zle, itv_in in *. destruct v as [[[x y] z]|]; [|done].
  destruct Hle as ([? ?]&[? ?]&_). cbn [fst snd] in *. apply (C104_fixed_exact q (x, y)); unfold InRect; cbn [fst snd]; lia.
Qed.
(** ... and the queries return the nearest points. *)
Theorem C104_fixed_nearest : forall pts perm T q k cap, Index zle (point_vol pts) perm T -> 1 <= k -> 2 <= length perm ->
  let dist o := custom_distance q (pts o) in
  nearest_query T Z.ltb 0%Z zbig dist (box_with fixed_box_distance q) k cap = Overflow \/
  exists out, nearest_query T Z.ltb 0%Z zbig dist (box_with fixed_box_distance q) k cap = Ok out /\ KNearest Z.ltb zbig dist k perm out.
Proof.
  intros pts perm T q k cap HI Hk Hl dist.
  destruct (C05_nearest_k_closest _ _ zle (point_vol pts) perm T Z.ltb 0%Z zbig dist (box_with fixed_box_distance q) k cap HI)
    as [H|(out&E&H&_)]; auto.
  - apply Zltb_StrictWeak.
  - apply fixed_safe.
  - right. exists out. auto.
Qed.

(** ** On the data of the example itself both distances give the expected output 2 1 (CD:115-117). *)
Definition three (o : nat) : pt := nth o [(1, 0); (0, 3); (0, 0)]%Z (0, 0)%Z.
Definition three_perm : list nat := [2; 1; 0].
Definition three_codes : list Z := [0; 1537228672809129301; 3074457345618258602]%Z.
Definition three_tree : tree zbox := default empty_tree (build_seq zjoin None (point_vol three) 64 three_codes three_perm).
Theorem C104_output :
  codes64 binary32 2 (float_scene 0 1 0 3) (map (fun o => float_pt (three o)) three_perm) = Some three_codes /\
  Index zle (point_vol three) three_perm three_tree /\
  nearest_query three_tree Z.ltb 0%Z zbig (fun o => custom_distance (0, 1)%Z (three o)) (box_with custom_box_distance (0, 1)%Z) 2 64 = Ok [2; 1] /\
  nearest_query three_tree Z.ltb 0%Z zbig (fun o => custom_distance (0, 1)%Z (three o)) (box_with fixed_box_distance (0, 1)%Z) 2 64 = Ok [2; 1].
Proof.
  split; [vm_compute; reflexivity|]. split.
  - apply (C01_index_over_any_number_of_values _ zle zjoin None (point_vol three) 64 three_codes);
      [apply zbox_JoinSemi|lia|reflexivity|simpl; lia|apply sorted_codesb_ok; vm_compute; reflexivity|].
    apply build_seq_built; [simpl; lia|]. vm_compute. reflexivity.
  - split; vm_compute; reflexivity.
Qed.

Example C104_example : Index zle (point_vol four) four_perm four_tree /\
  nearest_query four_tree Z.ltb 0%Z zbig (fun o => custom_distance (5, 30)%Z (four o)) (box_with fixed_box_distance (5, 30)%Z) 2 64 = Ok [3; 2].
Proof. split; [apply four_index|]. vm_compute. reflexivity. Qed.

Print Assumptions C104_lower_bound_refuted.
Print Assumptions C104_nearest_refuted.
Print Assumptions C104_fixed_exact.
Print Assumptions C104_fixed_nearest.
Print Assumptions C104_output.
