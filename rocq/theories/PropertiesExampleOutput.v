(** C105: the outputs that the comments of the clustering examples promise.  Those of the DBSCAN example are right: every
    valid clustering of its points has these labels.  That of the EMST example is wrong: its last two lines are never
    printed in that order. *)
From Verif Require Import Base DbscanSpec EdgeModel ExampleOutputModel.
From stdpp Require Import sorting.
From Coq Require Import ZArith Sorting.Sorted.
Local Open Scope nat_scope.

(** * Checking a clustering of finitely many points *)
Section Check.
Variables (n minpts : nat) (near : nat -> nat -> bool) (comp next rank : list nat).
Definition coreb (i : nat) : bool := (i <? n) && (minpts <=? length (List.filter (near i) (seq 0 n))).
Definition cp (i : nat) : nat := nth i comp i.
(** [comp] is constant along the edges of the core points and not above its argument; [next] leads a core point to a core point
    of smaller [rank]. *)
Definition check : bool :=
  (length comp =? n) &&
  forallb (fun a => (cp a <=? a) && forallb (fun b => negb (coreb a && coreb b && near a b) || (cp a =? cp b)) (seq 0 n)) (seq 0 n) &&
  forallb (fun a => negb (coreb a) || (cp a =? a) || (coreb (nth a next 0) && near a (nth a next 0) && (cp (nth a next 0) =? cp a) && (nth (nth a next 0) rank 0 <? nth a rank 0))) (seq 0 n).
Lemma coreb_spec i : coreb i = true <-> Core n minpts near i.
Proof. unfold coreb, Core. rewrite andb_true_iff, Nat.ltb_lt, Nat.leb_le. done. Qed.
(** The label of a point near no core point. *)
Lemma check_noise labels i : ValidDBSCAN n minpts near labels -> i < n -> coreb i = false ->
  existsb (fun j => coreb j && near i j) (seq 0 n) = false -> labels !! i = Some (-1)%Z.
Proof.
  intros HV Hi Ci He. apply (vd_noise _ _ _ _ HV); [done|rewrite <- coreb_spec; by rewrite Ci|].
  intros j Hj. apply not_true_is_false. intros Hn. rewrite <- not_true_iff_false, existsb_exists in He. apply He. exists j.
  split; [apply in_seq; destruct Hj; lia|]. apply coreb_spec in Hj. by rewrite Hj, Hn.
Qed.
Hypothesis HC : check = true.

Lemma check_parts : length comp = n /\
  (forall a b, a < n -> b < n -> cp a <= a /\ (CoreEdge n minpts near a b -> cp a = cp b)) /\
  (forall a, Core n minpts near a -> cp a = a \/ exists b, CoreEdge n minpts near a b /\ cp b = cp a /\ nth b rank 0 < nth a rank 0).
Proof.
  unfold check in HC. rewrite !andb_true_iff, Nat.eqb_eq, !forallb_forall in HC. destruct HC as [[HL HE] HN]. split; [done|]. split.
  - intros a b Ha Hb. specialize (HE a ltac:(apply in_seq; lia)). rewrite andb_true_iff, Nat.leb_le, forallb_forall in HE.
    destruct HE as [H1 H2]. split; [done|]. intros (Ca&Cb&Hn). specialize (H2 b ltac:(apply in_seq; lia)).
    apply coreb_spec in Ca, Cb. rewrite Ca, Cb, Hn in H2. simpl in H2. by apply Nat.eqb_eq.
  - intros a Ca. pose proof (proj1 Ca). specialize (HN a ltac:(apply in_seq; lia)). pose proof (proj2 (coreb_spec a) Ca) as Cb.
    rewrite Cb in HN. simpl in HN. apply orb_true_iff in HN as [E|E]; [left; by apply Nat.eqb_eq|]. right.
    rewrite !andb_true_iff, Nat.eqb_eq, Nat.ltb_lt in E. destruct E as [[[E1 E2] E3] E4]. exists (nth a next 0).
    split; [|done]. split; [done|]. split; [by apply coreb_spec|done].
Qed.
Lemma conn_cp a b : Conn (CoreEdge n minpts near) a b -> cp a = cp b.
Proof.
  destruct check_parts as (_&HE&_). induction 1 as [x y H| |x y _ IH|x y z _ IH1 _ IH2]; try congruence.
  pose proof (proj1 (proj1 H)). pose proof (proj1 (proj1 (proj2 H))). by apply (HE x y).
Qed.
Lemma cp_le a : cp a <= a.
Proof.
  destruct check_parts as (HL&HE&_). destruct (decide (a < n)); [by apply (HE a a)|]. unfold cp. rewrite nth_overflow by lia. done.
Qed.
Lemma cp_conn a : Core n minpts near a -> Conn (CoreEdge n minpts near) a (cp a).
Proof.
  destruct check_parts as (_&_&HN). remember (nth a rank 0) as r eqn:Hr. revert a Hr. induction (lt_wf r) as [r _ IH]. intros a -> Ca. destruct (HN a Ca) as [E|(b&Hb&E&Hlt)].
  - rewrite E. apply rst_refl.
  - apply rst_trans with b; [by apply rst_step|]. rewrite <- E. apply (IH _ Hlt); [done|]. apply Hb.
Qed.
(** The label of a core point. *)
Lemma check_core labels i : ValidDBSCAN n minpts near labels -> coreb i = true -> labels !! i = Some (Z.of_nat (cp i)).
Proof.
  intros HV Ci%coreb_spec. destruct (vd_core _ _ _ _ HV) as [H _]. destruct (H i Ci) as (m&[Hm1 Hm2]&->). do 2 f_equal.
  apply Nat.le_antisymm; [by apply Hm2, cp_conn|]. rewrite (conn_cp i m Hm1). apply cp_le.
Qed.
(** The label of a border point. *)
Lemma check_border labels i : ValidDBSCAN n minpts near labels -> i < n -> coreb i = false ->
  existsb (fun j => coreb j && near i j) (seq 0 n) = true ->
  exists j, j ∈ List.filter (fun j => coreb j && near i j) (seq 0 n) /\ labels !! i = Some (Z.of_nat (cp j)).
Proof.
  intros HV Hi Ci He. apply existsb_exists in He as (j0&_&Hj0). apply andb_true_iff in Hj0 as [C0 N0].
  destruct (vd_border _ _ _ _ HV i Hi) as (j&Cj&Nj&E).
  { rewrite <- coreb_spec. by rewrite Ci. } { exists j0. by rewrite <- coreb_spec. }
  exists j. split.
  - apply elem_of_list_In, filter_In. split; [apply in_seq; destruct Cj; lia|]. apply coreb_spec in Cj. by rewrite Cj, Nj.
  - rewrite E. apply check_core; [done|]. by apply coreb_spec.
Qed.
(** And these labels are a valid clustering. *)
Definition label_okb (labels : list Z) (i : nat) : bool :=
  if coreb i then Z.eqb (nth i labels (-2)%Z) (Z.of_nat (cp i))
  else if existsb (fun j => coreb j && near i j) (seq 0 n)
  then existsb (fun j => coreb j && near i j && Z.eqb (nth i labels (-2)%Z) (Z.of_nat (cp j))) (seq 0 n)
  else Z.eqb (nth i labels (-2)%Z) (-1).
Lemma check_valid labels : length labels = n -> forallb (label_okb labels) (seq 0 n) = true -> ValidDBSCAN n minpts near labels.
Proof.
  intros HL Hok. rewrite forallb_forall in Hok.
  assert (forall i, i < n -> labels !! i = Some (nth i labels (-2)%Z)) as Hnth.
  { intros i Hi. destruct (lookup_lt_is_Some_2 labels i) as [x Hx]; [lia|]. rewrite Hx. f_equal. symmetry. by apply nth_lookup_Some. }
  assert (forall i, Core n minpts near i -> labels !! i = Some (Z.of_nat (cp i))) as Hcore.
  { intros i Ci. pose proof (proj1 Ci). specialize (Hok i ltac:(apply in_seq; lia)). unfold label_okb in Hok.
    rewrite (proj2 (coreb_spec i) Ci) in Hok. apply Z.eqb_eq in Hok. rewrite Hnth by done. by rewrite Hok. }
  constructor.
  - done.
  - split.
    + intros i Ci. exists (cp i). split; [|by apply Hcore]. split; [by apply cp_conn|].
      intros y Hy. rewrite (conn_cp i y Hy). apply cp_le.
    + intros i j Ci Cj. rewrite (Hcore i Ci), (Hcore j Cj). split.
      * intros [= E]. apply Nat2Z.inj in E. apply rst_trans with (cp i); [by apply cp_conn|]. rewrite E. apply rst_sym. by apply cp_conn.
      * intros Hc. by rewrite (conn_cp i j Hc).
  - intros i Hi Ci (j&Cj&Nj). specialize (Hok i ltac:(apply in_seq; lia)). unfold label_okb in Hok.
    destruct (coreb i) eqn:E; [by apply coreb_spec in E|].
    destruct (existsb (fun j => coreb j && near i j) (seq 0 n)) eqn:E2.
    + apply existsb_exists in Hok as (k&_&Hk). rewrite !andb_true_iff, Z.eqb_eq in Hk. destruct Hk as [[K1 K2] K3].
      exists k. apply coreb_spec in K1. split; [done|]. split; [done|]. rewrite (Hnth i Hi), (Hcore k K1). by rewrite K3.
    + exfalso. rewrite <- not_true_iff_false, existsb_exists in E2. apply E2. exists j. split; [apply in_seq; destruct Cj; lia|].
      by rewrite (proj2 (coreb_spec j) Cj), Nj.
  - intros i Hi Ci Hn. specialize (Hok i ltac:(apply in_seq; lia)). unfold label_okb in Hok.
    destruct (coreb i) eqn:E; [by apply coreb_spec in E|].
    destruct (existsb (fun j => coreb j && near i j) (seq 0 n)) eqn:E2.
    + exfalso. apply existsb_exists in E2 as (j&_&Hj). apply andb_true_iff in Hj as [J1%coreb_spec J2]. by rewrite Hn in J2.
    + apply Z.eqb_eq in Hok. rewrite Hnth by done. by rewrite Hok.
Qed.
End Check.

(** * The DBSCAN example *)
Lemma by_points (l l' : list Z) : length l = 10 -> length l' = 10 ->
  l !! 0 = l' !! 0 -> l !! 1 = l' !! 1 -> l !! 2 = l' !! 2 -> l !! 3 = l' !! 3 -> l !! 4 = l' !! 4 ->
  l !! 5 = l' !! 5 -> l !! 6 = l' !! 6 -> l !! 7 = l' !! 7 -> l !! 8 = l' !! 8 -> l !! 9 = l' !! 9 -> l = l'.
Proof.
  intros H1 H2. intros. apply list_eq. intros i. destruct (decide (i < 10)); [by do 10 (destruct i; [done|]); lia|].
  rewrite !lookup_ge_None_2 by lia. done.
Qed.
Ltac points HV comp next rank :=
  match type of HV with ValidDBSCAN ?n ?m ?near ?labels =>
  apply by_points; [exact (vd_len _ _ _ _ HV)|reflexivity|..];
  match goal with
  | |- labels !! ?k = _ =>
    first [etransitivity; [apply (check_core n m near comp next rank ltac:(vm_compute; reflexivity) labels k HV); vm_compute; reflexivity|reflexivity]
          |etransitivity; [apply (check_noise n m near labels k HV); [lia|vm_compute; reflexivity|vm_compute; reflexivity]|reflexivity]
          |idtac]
  end end.

(** The four expected outputs of the example are those of every clustering that is valid in the sense of C22. *)
Theorem C105_dbscan : forall labels,
  (ValidDBSCAN 10 2 (db_near 2) labels -> labels = db_expected1) /\
  (ValidDBSCAN 10 5 (db_near 2) labels -> labels = db_expected2) /\
  (ValidDBSCAN 10 2 (db_near 3) labels -> labels = db_expected3) /\
  (ValidDBSCAN 10 4 (db_near 3) labels -> labels = db_expected4a \/ labels = db_expected4b).
Proof.
  intros labels. split; [|split; [|split]]; intros HV.
  - points HV [0;1;1;1;1;0;0;0;8;9] [0;1;1;2;1;0;5;0;0;0] [0;1;2;3;4;5;6;7;8;9].
  - points HV [0;1;2;3;4;5;6;7;8;9] [0;1;2;3;4;5;6;7;8;9] [0;1;2;3;4;5;6;7;8;9].
  - points HV [0;0;0;0;0;0;0;0;8;0] [0;3;3;9;3;0;0;0;0;5] [0;4;4;3;4;1;1;1;0;2].
  - assert (labels !! 9 = Some 0%Z \/ labels !! 9 = Some 1%Z) as H9.
    { destruct (check_border 10 4 (db_near 3) [0;1;1;1;1;0;0;0;8;9] [0;1;1;2;1;0;5;0;0;0] [0;1;2;3;4;5;6;7;8;9] ltac:(vm_compute; reflexivity) labels 9 HV)
        as (j&Hj&E); [lia|vm_compute; reflexivity|vm_compute; reflexivity|].
      replace (List.filter (fun j => coreb 10 4 (db_near 3) j && db_near 3 9 j) (seq 0 10)) with [3; 5] in Hj by (vm_compute; reflexivity).
      rewrite E. rewrite !elem_of_cons, elem_of_nil in Hj. destruct Hj as [->|[->|[]]]; [right|left]; vm_compute; reflexivity. }
    destruct H9 as [H9|H9]; [left|right]; points HV [0;1;1;1;1;0;0;0;8;9] [0;1;1;2;1;0;5;0;0;0] [0;1;2;3;4;5;6;7;8;9]; exact H9.
Qed.
(** The hypotheses are met: each expected output is a valid clustering. *)
Example C105_dbscan_example : ValidDBSCAN 10 2 (db_near 2) db_expected1 /\ ValidDBSCAN 10 5 (db_near 2) db_expected2 /\
  ValidDBSCAN 10 2 (db_near 3) db_expected3 /\ ValidDBSCAN 10 4 (db_near 3) db_expected4a /\ ValidDBSCAN 10 4 (db_near 3) db_expected4b.
Proof.
  split; [|split; [|split; [|split]]].
  - apply (check_valid _ _ _ [0;1;1;1;1;0;0;0;8;9] [0;1;1;2;1;0;5;0;0;0] [0;1;2;3;4;5;6;7;8;9]); vm_compute; reflexivity.
  - apply (check_valid _ _ _ [0;1;2;3;4;5;6;7;8;9] [0;1;2;3;4;5;6;7;8;9] [0;1;2;3;4;5;6;7;8;9]); vm_compute; reflexivity.
  - apply (check_valid _ _ _ [0;0;0;0;0;0;0;0;8;0] [0;3;3;9;3;0;0;0;0;5] [0;4;4;3;4;1;1;1;0;2]); vm_compute; reflexivity.
  - apply (check_valid _ _ _ [0;1;1;1;1;0;0;0;8;9] [0;1;1;2;1;0;5;0;0;0] [0;1;2;3;4;5;6;7;8;9]); vm_compute; reflexivity.
  - apply (check_valid _ _ _ [0;1;1;1;1;0;0;0;8;9] [0;1;1;2;1;0;5;0;0;0] [0;1;2;3;4;5;6;7;8;9]); vm_compute; reflexivity.
Qed.

(** * The EMST example *)
(** No edge is before one that is smaller in the order of the edges: what a sort achieves. *)
Definition SortedEdges (es : list (wedge Z)) : Prop := StronglySorted (fun a b => wedge_lt Z.ltb b a = false) es.
Definition triple_le (a b : N * N * Z) : Prop :=
  (a.2 < b.2)%Z \/ (a.2 = b.2 /\ ((a.1.1 < b.1.1)%N \/ (a.1.1 = b.1.1 /\ (a.1.2 <= b.1.2)%N))).
Lemma wedge_triple a b : wedge_lt Z.ltb b a = false -> triple_le (print_edge a) (print_edge b).
Proof.
  unfold wedge_lt, weq, triple_le, print_edge. simpl.
  destruct (Z.ltb_spec (w_weight b) (w_weight a)), (Z.ltb_spec (w_weight a) (w_weight b)); simpl; try done; try (intros _; lia).
  destruct (N.eqb_spec (N.min (w_source b) (w_target b)) (N.min (w_source a) (w_target a))) as [E|E]; simpl.
  - intros H1%N.ltb_ge. right. split; [lia|]. right. lia.
  - intros H1%N.ltb_ge. right. split; [lia|]. left. lia.
Qed.
Global Instance triple_antisymm : AntiSymm (=) triple_le.
Proof. intros [[a1 a2] a3] [[b1 b2] b3]. unfold triple_le. simpl. intros H1 H2. repeat f_equal; lia. Qed.
Lemma sorted_triples es : SortedEdges es -> StronglySorted triple_le (print_edges es).
Proof.
  induction 1 as [|e es H IH Hf]; simpl; constructor; [done|]. apply Forall_fmap. eapply Forall_impl; [exact Hf|].
  intros x Hx. by apply wedge_triple.
Qed.
Definition emst_output : list (N * N * Z) := [(2%N,4%N,1%Z); (4%N,5%N,1%Z); (0%N,1%N,2%Z); (1%N,2%N,5%Z); (3%N,4%N,5%Z)].
(** Whatever the order and the directions in which the edges of the comment are found, they are printed in this order. *)
Theorem C105_emst : forall es, SortedEdges es -> print_edges es ≡ₚ emst_expected -> print_edges es = emst_output.
Proof.
  intros es Hs Hp. apply (StronglySorted_unique triple_le).
  - by apply sorted_triples.
  - unfold emst_output. repeat (apply SSorted_cons || apply SSorted_nil); repeat (apply Forall_cons_2 || apply Forall_nil_2); unfold triple_le; simpl; lia.
  - rewrite Hp. unfold emst_expected, emst_output. do 3 apply perm_skip. apply perm_swap.
Qed.
(** The edges have the lengths of the points of the example. *)
Definition OfCloud (e : wedge Z) : Prop :=
  w_weight e = sq_dist (nth (N.to_nat (w_source e)) emst_cloud (0,0)%Z) (nth (N.to_nat (w_target e)) emst_cloud (0,0)%Z).
(** The comment of the example is wrong: there are such edges, and none of their sorted lists prints as the comment says. *)
Theorem C105_emst_refuted : exists es, SortedEdges es /\ Forall OfCloud es /\ print_edges es ≡ₚ emst_expected /\
  forall es', SortedEdges es' -> print_edges es' <> emst_expected.
Proof.
  exists [WEdge 4 2 1%Z; WEdge 4 5 1%Z; WEdge 1 0 2%Z; WEdge 1 2 5%Z; WEdge 3 4 5%Z]%N. split; [|split; [|split]].
  - repeat constructor.
  - repeat constructor.
  - change (emst_output ≡ₚ emst_expected). unfold emst_expected, emst_output. do 3 apply perm_skip. apply perm_swap.
  - intros es' Hs E. pose proof (C105_emst es' Hs ltac:(by rewrite E)) as H. rewrite E in H. discriminate H.
Qed.
Print Assumptions C105_dbscan.
Print Assumptions C105_emst.
Print Assumptions C105_emst_refuted.
