(** Proofs about the triangulated surfaces: the form with edges. *)
From Verif Require Import SurfaceModel SurfaceSpec.
Local Open Scope nat_scope.

Lemma concat_block {A} (ls : list (list A)) k : (forall l, l ∈ ls -> length l = k) -> forall i j, j < k -> concat ls !! (k * i + j) = l ← ls !! i; l !! j.
Proof.
  induction ls as [|l ls IH]; intros Hk i j Hj; [done|]. cbn [concat]. pose proof (Hk l ltac:(left)) as Hl. destruct i as [|i].
  - rewrite Nat.mul_0_r. simpl. rewrite lookup_app_l by lia. done.
  - rewrite lookup_app_r by (rewrite Hl; nia). rewrite Hl. replace (k * S i + j - k) with (k * i + j) by nia. rewrite IH; [done| |done]. intros l' Hl'. apply Hk. by right.
Qed.
Lemma concat_block_length {A} (ls : list (list A)) k : (forall l, l ∈ ls -> length l = k) -> length (concat ls) = k * length ls.
Proof. induction ls as [|l ls IH]; intros Hk; simpl; [lia|]. rewrite app_length, IH, (Hk l) by (first [by left | intros; apply Hk; by right]). lia. Qed.

Definition joins (es : list edge) (i u v : nat) : Prop := es !! i = Some (u, v) \/ es !! i = Some (v, u).
Record tri_at (es : list edge) (t : tri) (a b c : nat) : Prop := {
  ta_0 : joins es t.1.1 a b; ta_1 : joins es t.1.2 b c; ta_2 : joins es t.2 c a; ta_ab : a <> b; ta_bc : b <> c; ta_ca : c <> a }.
Definition mult (ts : list tri) (e : nat) : nat := sum_list (map (fun t => count_occ Nat.eq_dec (corners t) e) ts).
Record Inv (nv : nat) (es : list edge) (ts : list tri) : Prop := {
  v_edge : forall i u v, joins es i u v -> u <> v /\ u < nv;
  v_uniq : forall i j u v, joins es i u v -> joins es j u v -> i = j;
  v_tri : forall t, t ∈ ts -> exists a b c, tri_at es t a b c;
  v_share : forall k k' t t' x y, ts !! k = Some t -> ts !! k' = Some t' -> x <> y -> x ∈ corners t -> y ∈ corners t -> x ∈ corners t' -> y ∈ corners t' -> k = k';
  v_mult : forall e, e < length es -> 1 <= mult ts e <= 2;
  v_used : forall v, v < nv -> exists i w, joins es i v w }.
Definition InvClosed (es : list edge) (ts : list tri) : Prop := forall e, e < length es -> mult ts e = 2.
Definition Meet (ts : list tri) (i j : nat) : Prop := exists t t' e, ts !! i = Some t /\ ts !! j = Some t' /\ e ∈ corners t /\ e ∈ corners t'.
Definition InvConnected (ts : list tri) : Prop := forall i j, i < length ts -> j < length ts -> rtc (Meet ts) i j.

Lemma joins_sym es i u v : joins es i u v -> joins es i v u.
Proof. intros [H|H]; [by right|by left]. Qed.
Lemma joins_lt es i u v : joins es i u v -> i < length es.
Proof. intros [H|H]; by apply lookup_lt_Some in H. Qed.
Lemma joins_eq es i u v u' v' : joins es i u v -> joins es i u' v' -> u = u' /\ v = v' \/ u = v' /\ v = u'.
Proof. intros [H|H] [H'|H']; rewrite H in H'; injection H' as -> ->; tauto. Qed.

(** A triangle by its edges and by its vertices *)
Lemma tri_edge es t a b c u v : tri_at es t a b c -> u <> v -> u ∈ [a; b; c] -> v ∈ [a; b; c] -> exists e, e ∈ corners t /\ joins es e u v.
Proof.
  destruct t as [[e0 e1] e2]. intros [H0 H1 H2 N1 N2 N3] Huv Hu Hv. simpl in *. rewrite !elem_of_cons, elem_of_nil in Hu, Hv.
  assert (e0 ∈ [e0; e1; e2]) as I0 by (left). assert (e1 ∈ [e0; e1; e2]) as I1 by (right; left). assert (e2 ∈ [e0; e1; e2]) as I2 by (right; right; left).
  destruct Hu as [->|[->|[->|[]]]], Hv as [->|[->|[->|[]]]]; try done; first [by exists e0|by exists e1|by exists e2|exists e0; split; [done|by apply joins_sym]|exists e1; split; [done|by apply joins_sym]|exists e2; split; [done|by apply joins_sym]].
Qed.
Lemma tri_vertex es t a b c e u v : tri_at es t a b c -> e ∈ corners t -> joins es e u v -> u ∈ [a; b; c] /\ v ∈ [a; b; c] /\ u <> v.
Proof.
  destruct t as [[e0 e1] e2]. intros [H0 H1 H2 N1 N2 N3] He Hj. simpl in *. rewrite !elem_of_cons, elem_of_nil in He. rewrite !elem_of_cons.
  destruct He as [->|[->|[->|[]]]]; [destruct (joins_eq _ _ _ _ _ _ Hj H0) as [[-> ->]|[-> ->]]|destruct (joins_eq _ _ _ _ _ _ Hj H1) as [[-> ->]|[-> ->]]|destruct (joins_eq _ _ _ _ _ _ Hj H2) as [[-> ->]|[-> ->]]]; naive_solver.
Qed.
Lemma tri_nodup es t a b c : tri_at es t a b c -> NoDup (corners t).
Proof.
  destruct t as [[e0 e1] e2]. intros [H0 H1 H2 N1 N2 N3]. simpl in *. repeat (apply NoDup_cons; split); rewrite ?elem_of_cons, ?elem_of_nil; try apply NoDup_nil_2.
  - intros [->|[->|[]]]; [destruct (joins_eq _ _ _ _ _ _ H0 H1)|destruct (joins_eq _ _ _ _ _ _ H0 H2)]; naive_solver.
  - intros [->|[]]. destruct (joins_eq _ _ _ _ _ _ H1 H2); naive_solver.
  - intros [].
Qed.
Lemma count_nodup (l : list nat) e : NoDup l -> count_occ Nat.eq_dec l e = if bool_decide (e ∈ l) then 1 else 0.
Proof.
  intros HN. case_bool_decide as He.
  - apply (NoDup_count_occ' Nat.eq_dec); [by apply NoDup_ListNoDup|by apply elem_of_list_In].
  - apply count_occ_not_In. by rewrite <- elem_of_list_In.
Qed.
(** The same triangle: [vt] by its vertices, [et] by its edges *)
Definition same (es : list edge) (vt et : tri) : Prop := exists a b c, tri_at es et a b c /\ corners vt ≡ₚ [a; b; c].
Lemma around_mult es vts ets e u v : (forall i j u v, joins es i u v -> joins es j u v -> i = j) -> Forall2 (same es) vts ets -> u <> v -> joins es e u v -> around vts u v = mult ets e.
Proof.
  intros HU HF Huv He. induction HF as [|vt et vts ets (a & b & c & HT & HP) HF IH]; [done|]. unfold around, mult in *. cbn [List.filter map sum_list]. simpl. rewrite <- IH.
  rewrite (count_nodup _ _ (tri_nodup _ _ _ _ _ HT)). rewrite !(bool_decide_ext (_ ∈ corners vt) (_ ∈ [a; b; c])) by (by rewrite HP).
  destruct (bool_decide_reflect (e ∈ corners et)) as [Hi|Hi].
  - destruct (tri_vertex _ _ _ _ _ _ _ _ HT Hi He) as (Hu & Hv & _). by rewrite !bool_decide_true by done.
  - destruct (bool_decide_reflect (u ∈ [a; b; c])) as [Hu|]; [|done]. destruct (bool_decide_reflect (v ∈ [a; b; c])) as [Hv|]; [|done]. destruct (tri_edge _ _ _ _ _ _ _ HT Huv Hu Hv) as (e' & He' & Hj). by rewrite (HU _ _ _ _ He Hj) in Hi.
Qed.
Lemma around_zero es vts ets u v : Forall2 (same es) vts ets -> u <> v -> (forall e, ~ joins es e u v) -> around vts u v = 0.
Proof.
  intros HF Huv He. induction HF as [|vt et vts ets (a & b & c & HT & HP) HF IH]; [done|]. unfold around in *. cbn [List.filter].
  rewrite !(bool_decide_ext (_ ∈ corners vt) (_ ∈ [a; b; c])) by (by rewrite HP).
  destruct (bool_decide_reflect (u ∈ [a; b; c])) as [Hu|]; [|done]. destruct (bool_decide_reflect (v ∈ [a; b; c])) as [Hv|]; [|done].
  destruct (tri_edge _ _ _ _ _ _ _ HT Huv Hu Hv) as (e' & He' & Hj). by apply He in Hj.
Qed.

(** From the edges to the vertices *)
Lemma vertex_triangle_ok es t a b c : tri_at es t a b c -> exists vt, vertex_triangle es t = Some vt /\ corners vt ≡ₚ [a; b; c].
Proof.
  destruct t as [[e0 e1] e2]. intros [H0 H1 H2 N1 N2 N3]. simpl in *. unfold vertex_triangle.
  assert (a =? b = false) as Q1 by (by apply Nat.eqb_neq). assert (b =? a = false) as Q2 by (by apply Nat.eqb_neq).
  assert (b =? c = false) as Q3 by (by apply Nat.eqb_neq). assert (c =? b = false) as Q4 by (by apply Nat.eqb_neq).
  assert (a =? c = false) as Q5 by (by apply Nat.eqb_neq). assert (c =? a = false) as Q6 by (by apply Nat.eqb_neq).
  destruct H0 as [->| ->], H1 as [->| ->]; simpl; rewrite ?Nat.eqb_refl, ?Q1, ?Q2, ?Q3, ?Q4, ?Q5, ?Q6; simpl; eexists; (split; [reflexivity|]); simpl; first [done|by rewrite (perm_swap a b)].
Qed.
Lemma vertex_form_ok nv es ts : Inv nv es ts -> exists vts, vertex_form es ts = Some vts /\ Forall2 (same es) vts ts.
Proof.
  intros HI. pose proof (v_tri _ _ _ HI) as HT. clear HI. unfold vertex_form. induction ts as [|t ts IH]; [by exists []|].
  destruct (HT t ltac:(left)) as (a & b & c & Ht). destruct (vertex_triangle_ok _ _ _ _ _ Ht) as (vt & E & HP). destruct IH as (vts & E' & HF); [intros; apply HT; by right|].
  exists (vt :: vts). simpl. rewrite E. simpl. rewrite E'. simpl. split; [done|]. constructor; [|done]. by exists a, b, c.
Qed.
Lemma same_lookup es vts ets i vt : Forall2 (same es) vts ets -> vts !! i = Some vt -> exists et, ets !! i = Some et /\ same es vt et.
Proof. intros HF Hi. destruct (Forall2_lookup_l _ _ _ _ _ HF Hi) as (et & ? & ?). by exists et. Qed.

Lemma mult_pos ts e : 1 <= mult ts e -> exists t, t ∈ ts /\ e ∈ corners t.
Proof.
  induction ts as [|t ts IH]; unfold mult in *; simpl; [lia|]. intros H. destruct (decide (e ∈ corners t)) as [He|He]; [exists t; split; [left|done]|].
  rewrite elem_of_list_In in He. apply (count_occ_not_In Nat.eq_dec) in He. destruct IH as (t' & ? & ?); [lia|]. exists t'. split; [by right|done].
Qed.
Lemma inv_surface nv es ets vts : Inv nv es ets -> Forall2 (same es) vts ets -> Surface nv vts.
Proof.
  intros HI HF. constructor.
  - intros vt v Ht Hv. apply elem_of_list_lookup in Ht as [i Ht]. destruct (same_lookup _ _ _ _ _ HF Ht) as (et & He & a & b & c & HT & HP). rewrite HP, !elem_of_cons, elem_of_nil in Hv.
    destruct HT as [H0 H1 H2 _ _ _]. destruct Hv as [->|[->|[->|[]]]]; by eapply (v_edge _ _ _ HI).
  - intros vt Ht. apply elem_of_list_lookup in Ht as [i Ht]. destruct (same_lookup _ _ _ _ _ HF Ht) as (et & He & a & b & c & HT & HP). rewrite HP.
    destruct HT as [_ _ _ ? ? ?]. repeat (apply NoDup_cons; split); rewrite ?elem_of_cons, ?elem_of_nil; try apply NoDup_nil_2; naive_solver.
  - intros v Hv. destruct (v_used _ _ _ HI v Hv) as (i & w & Hj). destruct (mult_pos ets i) as (et & He & Hi); [by apply (v_mult _ _ _ HI), (joins_lt _ _ _ _ Hj)|].
    apply elem_of_list_lookup in He as [k He]. destruct (Forall2_lookup_r _ _ _ _ _ HF He) as (vt & Hk & a & b & c & HT & HP). exists vt. split; [by eapply elem_of_list_lookup_2|]. rewrite HP. by eapply tri_vertex.
  - intros u v Huv. destruct (decide (Exists (fun e => e = (u, v) \/ e = (v, u)) es)) as [H|H].
    + apply Exists_exists in H as (e & He & H). apply elem_of_list_lookup in He as [i He]. assert (joins es i u v) as Hj by (destruct H as [-> | ->]; [by left|by right]).
      rewrite (around_mult es vts ets i u v (v_uniq _ _ _ HI) HF Huv Hj). by apply (v_mult _ _ _ HI), (joins_lt _ _ _ _ Hj).
    + rewrite (around_zero es vts ets u v HF Huv); [lia|]. intros e He. apply H. apply Exists_exists. destruct He as [He|He]; apply elem_of_list_lookup_2 in He; eexists; (split; [exact He|]); tauto.
  - intros i j vt vt' Hi Hj HP. destruct (same_lookup _ _ _ _ _ HF Hi) as (et & He & a & b & c & HT & P1). destruct (same_lookup _ _ _ _ _ HF Hj) as (et' & He' & a' & b' & c' & HT' & P2).
    assert (forall z, z ∈ [a; b; c] -> z ∈ [a'; b'; c']) as Hin by (intros z; by rewrite <- P1, HP, P2).
    pose proof (tri_nodup _ _ _ _ _ HT) as HN. destruct et as [[e0 e1] e2]. destruct HT as [H0 H1 _ N1 N2 _]. simpl in *.
    destruct (tri_edge _ _ _ _ _ a b HT' N1) as (x & Hx & Jx); [apply Hin; left|apply Hin; right; left|]. destruct (tri_edge _ _ _ _ _ b c HT' N2) as (y & Hy & Jy); [apply Hin; right; left|apply Hin; right; right; left|].
    rewrite (v_uniq _ _ _ HI _ _ _ _ Jx H0) in Hx. rewrite (v_uniq _ _ _ HI _ _ _ _ Jy H1) in Hy.
    apply (v_share _ _ _ HI i j (e0, e1, e2) et' e0 e1); try done; simpl; [|left|right; left]. intros ->. apply NoDup_cons in HN as [HN _]. apply HN. left.
Qed.
Lemma inv_closed nv es ets vts : Inv nv es ets -> InvClosed es ets -> Forall2 (same es) vts ets -> Closed vts.
Proof.
  intros HI HC HF u v Huv. destruct (decide (Exists (fun e => e = (u, v) \/ e = (v, u)) es)) as [H|H].
  - apply Exists_exists in H as (e & He & H). apply elem_of_list_lookup in He as [i He]. assert (joins es i u v) as Hj by (destruct H as [-> | ->]; [by left|by right]).
    rewrite (around_mult es vts ets i u v (v_uniq _ _ _ HI) HF Huv Hj), (HC i (joins_lt _ _ _ _ Hj)). done.
  - rewrite (around_zero es vts ets u v HF Huv); [lia|]. intros e He. apply H. apply Exists_exists. destruct He as [He|He]; apply elem_of_list_lookup_2 in He; eexists; (split; [exact He|]); tauto.
Qed.
Lemma inv_connected nv es ets vts : Inv nv es ets -> InvConnected ets -> Forall2 (same es) vts ets -> Connected vts.
Proof.
  intros HI HC HF i j Hi Hj. rewrite (Forall2_length _ _ _ HF) in Hi, Hj. specialize (HC i j Hi Hj). clear Hi Hj. induction HC as [i|i k j Hm _ IH]; [done|].
  apply rtc_l with k; [|done]. destruct Hm as (t & t' & e & Ht & Ht' & He & He'). destruct (Forall2_lookup_r _ _ _ _ _ HF Ht) as (vt & Hv & a & b & c & HT & HP). destruct (Forall2_lookup_r _ _ _ _ _ HF Ht') as (vt' & Hv' & a' & b' & c' & HT' & HP').
  assert (exists u v, joins es e u v) as (u & v & Huv). { destruct t as [[e0 e1] e2]. destruct HT as [H0 H1 H2 _ _ _]. simpl in *. rewrite !elem_of_cons, elem_of_nil in He. destruct He as [->|[->|[->|[]]]]; by eauto. }
  destruct (tri_vertex _ _ _ _ _ _ _ _ HT He Huv) as (? & ? & ?). destruct (tri_vertex _ _ _ _ _ _ _ _ HT' He' Huv) as (? & ? & ?).
  exists vt, vt', u, v. rewrite HP, HP'. done.
Qed.
