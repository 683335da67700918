(** C57: nearest queries on a distributed tree with a box as query geometry. *)
From Coq Require Import Sorting.Sorted SpecFloat.
From Verif Require Import Base KernelAlgModel CrsModel CrsSpec HeapModel HeapSpec TraversalSpec DistributorModel
  DistTreeModel DistTreeSpec PropertiesDistNearest BoxFloatModel.

(** The program of C34 with the functions of the code: a query is a box and a number of neighbours, the values are
    points, [bounds] the boxes of the ranks' trees.  Phase II asks the top tree for the ranks whose bounds intersect
    the query box expanded by the radius found (Helpers:164-171). *)
Definition box_program (values : list (list fpoint)) (bounds : list fbox) (preds : list (list (fbox * nat))) :=
  nearest_queryDispatch SFltb snd (length <$> values)
    (fun q rs => KNearest SFltb f32_inf (fun r => f_distance_bb q.1 (default [] (bounds !! r))) q.2 (seq 0 (length values)) rs)
    (fun '(q, rho) rs => rs ≡ₚ List.filter (fun r => f_intersects_bb (f_expand q.1 rho) (default [] (bounds !! r))) (seq 0 (length values)))
    (fun r q vs => Closest SFltb (fun v => f_distance_pb v q.1) q.2 (default [] (values !! r)) vs)
    (fun q v => f_distance_pb v q.1) (fun _ v => v) preds.
(** The claim of C34 for it. *)
Definition box_correct (values : list (list fpoint)) (preds : list (list (fbox * nat))) (s : nat) (out : list (option fpoint)) (offset : list nat) : Prop :=
  forall p, preds !! s = Some p ->
    exists answers, Forall2 (fun q a => Closest SFltb (fun v => f_distance_pb v q.1) q.2 (concat values) a /\
                                         Nearer SFltb (fun v => f_distance_pb v q.1) a) p answers /\
      CrsAnswerOrdered answers out offset.

Definition f1 : spec_float := S754_finite false 8388608 (-23).
Definition f2 : spec_float := S754_finite false 8388608 (-22).
Definition f100 : spec_float := S754_finite false 13107200 (-17).
(** -2^-33, about -1.2e-10 *)
Definition ftiny : spec_float := S754_finite true 8388608 (-56).

(** Two ranks with one value each, at x = -2^-33 and x = 100; one query, the box [1,2], asking for its nearest
    neighbour.  The distance to the first value rounds to 1; the box expanded by 1 starts just below 0, at -2^-149, and
    does not reach the value.  No rank is asked in phase II: the query returns nothing. *)
Definition bq_values : list (list fpoint) := [[[ftiny; f1]]; [[f100; f1]]].
Definition bq_bounds : list fbox := [[(ftiny, ftiny); (f1, f1)]; [(f100, f100); (f1, f1)]].
Definition bq_query : fbox * nat := ([(f1, f2); (f1, f2)], 1).

Example C57_numbers :
  f_distance_pb [ftiny; f1] bq_query.1 = f1 /\ SFltb f1 (f_distance_pb [f100; f1] bq_query.1) = true /\
  f_distance_bb bq_query.1 [(ftiny, ftiny); (f1, f1)] = f1 /\
  f_expand [(f1, f2)] f1 = [(S754_finite true 1 (-149), S754_finite false 12582913 (-22))] /\
  f_intersects_bb (f_expand bq_query.1 f1) [(ftiny, ftiny); (f1, f1)] = false.
Proof. vm_compute. done. Qed.

Theorem C57_box_query_refuted : exists values bounds preds,
  length bounds = length values /\ length preds = length values /\
  (* every value lies in the bounds of its rank *)
  (forall r vs b v, values !! r = Some vs -> bounds !! r = Some b -> v ∈ vs -> f_closestPoint v b = v) /\
  ~ box_program values bounds preds (box_correct values preds).
Proof.
  exists bq_values, bq_bounds, [[bq_query]; []]. split; [done|]. split; [done|]. split.
  { intros [|[|r]] vs b v [= <-] [= <-] Hv; by apply elem_of_list_singleton in Hv as ->. }
  intros H. unfold box_program, nearest_queryDispatch in H. change (sum_list (length <$> bq_values) =? 0) with false in H. cbv iota in H.
  destruct (H (fun s => match s with 0 => [f100] | _ => [] end)) as (Far&H1&H2); [by intros [|[|s]] p [= <-]|]. clear H.
  assert (Far 0 [f1] /\ Far 1 []) as (F0&F1).
  { unfold phaseI in H1. destruct (H1 [[Some 0]; []] [[0; 1]; [0]]) as (rks&E&H); [done|done| |].
    { intros [|[|s]] p rk off [= <-] [= <-] [= <-]; [|exists []; split; [constructor|by apply CrsAnswer_mk]].
      exists [[0]]. split; [|by apply CrsAnswer_mk]. constructor; [|done].
      split; [by exists [1]|vm_compute; done|intros o Ho; by apply elem_of_list_singleton in Ho as ->| |].
      - intros [|i] [|j] a b Hij Ha Hb; try lia; simplify_eq/=; done.
      - intros rest Hr a b Ha Hb. apply (Permutation_app_inv_l [0] [1]) in Hr. apply Permutation_length_1_inv in Hr as ->.
        apply elem_of_list_singleton in Ha as ->. apply elem_of_list_singleton in Hb as ->. vm_compute. done. }
    vm_compute in E. injection E as <-.
    destruct H as (countss&E&H). vm_compute in E. injection E as <-. cbv zeta in H.
    destruct (H (fun s => match s with 0 => [(0, 0)] | _ => [] end)) as (nr&E&H'); [by intros [|[|s]] off [= <-]|]. clear H. rename H' into H.
    vm_compute in E. injection E as <-.
    unfold forwardQueriesAndCommunicateResults, forwardQueries in H. repeat runstep H.
    destruct H as (qss&E&H). vm_compute in E. injection E as <-.
    specialize (H [[Some f1]; []] [[0; 1]; [0]] eq_refl eq_refl).
    feed specialize H.
    { intros [|[|s]] qs out off [= <-] [= <-] [= <-]; [|exists []; split; [constructor|by apply CrsAnswer_mk]].
      exists [[f1]]. split; [|by apply CrsAnswer_mk]. constructor; [|done]. exists [[ftiny; f1]]. split; [|vm_compute; done].
      split; [done|]. exists []. split; [done|]. intros a b _ Hb. by apply elem_of_nil in Hb. }
    destruct H as (rks&E&is&E'&H). vm_compute in E, E'. injection E as <-. injection E' as <-. repeat runstep H.
    destruct H as (_&_&H). split.
    - destruct (H 0 _ _ _ eq_refl eq_refl eq_refl) as (_&js&E&H0). vm_compute in E. injection E as <-.
      destruct (H0 [0] ltac:(done)) as (cs&E&H3). vm_compute in E. injection E as <-.
      specialize (H3 [(0, Some f1)] ltac:(done) ltac:(repeat constructor) _ eq_refl).
      destruct H3 as (ds&E&H3). vm_compute in E. injection E as <-. destruct (H3 [0] ltac:(done)) as (ds'&f&E&H4). vm_compute in E. by injection E as <- <-.
    - destruct (H 1 _ _ _ eq_refl eq_refl eq_refl) as (_&js&E&H0). vm_compute in E. injection E as <-.
      destruct (H0 [] ltac:(done)) as (cs&E&H3). vm_compute in E. injection E as <-.
      specialize (H3 [] ltac:(done) ltac:(repeat constructor) _ eq_refl).
      destruct H3 as (ds&E&H3). vm_compute in E. injection E as <-. destruct (H3 [] ltac:(done)) as (ds'&f&E&H4). vm_compute in E. by injection E as <- <-. }
  clear H1. specialize (H2 [[f1]; []] eq_refl). feed specialize H2; [by intros [|[|s]] fs [= <-]|]. rename H2 into H.
  unfold phaseII in H. destruct (H [[]; []] [[0; 0]; [0]]) as (rks&E&H'); [done|done| |].
  { intros [|[|s]] p rk off [= <-] [= <-] [= <-]; [|exists []; split; [constructor|by apply CrsAnswer_mk]].
    exists [[]]. split; [|by apply CrsAnswer_mk]. constructor; [|done]. vm_compute. done. }
  clear H. rename H' into H. vm_compute in E. injection E as <-.
  unfold forwardQueriesAndCommunicateResults, forwardQueries in H. repeat runstep H.
  destruct H as (qss&E&H). vm_compute in E. injection E as <-.
  specialize (H [[]; []] [[0]; [0]] eq_refl eq_refl).
  feed specialize H.
  { intros [|[|s]] qs out off [= <-] [= <-] [= <-]; exists []; split; [constructor|by apply CrsAnswer_mk|constructor|by apply CrsAnswer_mk]. }
  destruct H as (rks&E&is&E'&H). vm_compute in E, E'. injection E as <-. injection E' as <-. repeat runstep H.
  destruct H as (_&_&H). destruct (H 0 _ _ _ eq_refl eq_refl eq_refl) as (_&js&E&H0). vm_compute in E. injection E as <-.
  destruct (H0 [] ltac:(done)) as (cs&E&H3). vm_compute in E. injection E as <-.
  destruct (H3 [] ltac:(done) ltac:(repeat constructor)) as (pairs&E&H4). vm_compute in E. injection E as <-.
  destruct (H4 _ eq_refl) as (counts&E&H5). vm_compute in E. injection E as <-. destruct (H5 [0] ltac:(done)) as (n&out&E1&E2&H6).
  vm_compute in E1. injection E1 as <-. vm_compute in E2. injection E2 as <-.
  destruct (H6 _ eq_refl) as (answers&HF&_&E). apply Forall2_cons_inv_l in HF as (a&rest&[[HL _] _]&HF&->).
  destruct a as [|x a]; [vm_compute in HL; done|]. done.
Qed.
Print Assumptions C57_box_query_refuted.
