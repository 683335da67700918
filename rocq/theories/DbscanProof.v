(** From union-find labels to a DBSCAN clustering. *)
From Verif Require Import TraversalSpec TraversalProof.
From Verif Require Export DbscanSpec FinalizeProof.

Lemma LeastConn_labels (R : nat -> nat -> Prop) i j m m' : LeastConn R i m -> LeastConn R j m' -> (m = m' <-> Conn R i j).
Proof.
  destruct (Conn_equiv R) as (R1 & R2 & R3). intros [A B] [A' B']. split.
  - intros <-. eauto.
  - intros H. pose proof (B m' ltac:(eauto)). pose proof (B' m ltac:(eauto)). lia.
Qed.
Lemma CoreLabels_intro n minpts near labels :
  (forall i, Core n minpts near i -> exists m, LeastConn (CoreEdge n minpts near) i m /\ labels !! i = Some (Z.of_nat m)) ->
  CoreLabels n minpts near labels.
Proof.
  intros H. split; [done|]. intros i j Hi Hj. destruct (H i Hi) as (m & Hm & ->), (H j Hj) as (m' & Hm' & ->).
  rewrite <- (LeastConn_labels _ _ _ _ _ Hm Hm'). split; [intros [= E]; lia|by intros ->].
Qed.

(** The whole tail of the program: what [finish] needs to know about the labels, and what it produces. *)
Lemma finish_ok n minpts counts L (post : list Z -> Prop) : length L = n -> (forall x, x < n -> Pt n L (lab L x)) ->
  (forall out, length out = n ->
     (forall i, i < n -> out !! i = Some (if (cnt (fun j => target L j =? target L i) n =? 1) && ((minpts =? 2) || negb (is_core counts minpts i))
                                    then (-1)%Z else Z.of_nat (target L i))) -> post out) ->
  finish minpts counts L post.
Proof.
  intros HL HP Hpost. exists (n * (n + 5)). intros ts s He. destruct (fexec_ok n L HL HP ts s He) as [I Hb].
  split; [done|]. split; [intros t (pc & Ht & Hne); by eapply (fstep_progress n L HL HP)|]. intros HD.
  assert (fall_done s) as HD'.
  { intros t pc Ht. destruct pc; try done; exfalso; apply (HD t); eexists; (split; [exact Ht|done]). }
  destruct (fdone_ok n L HL HP s I HD') as (H1 & H2 & H3).
  destruct (mark_noise_ok (minpts =? 2) (is_core counts minpts) (f_sizes s) (f_labels s) n H1) as (out & E & Ho & Hout).
  { intros i l Hi. assert (i < n) as Hin by (rewrite <- H1; by eapply lookup_lt_Some). destruct (H3 i Hin) as [E1 E2].
    rewrite E1 in Hi. injection Hi as <-. rewrite E2. eauto. }
  exists out. split; [done|]. apply Hpost; [done|]. intros i Hi. destruct (H3 i Hi) as [E1 E2]. exact (Hout i _ _ E1 E2).
Qed.

Section General.
Variables (n minpts : nat) (near : nat -> nat -> bool) (counts : list nat).
Hypothesis counts_ok : forall i, is_core counts minpts i = true <-> Core n minpts near i.
Notation core := (is_core counts minpts).
Notation C := (fun c => core c = true).
Notation E := (CoreEdge n minpts near).
Variable progs : list (list uop).
Variable L : list nat.
Hypothesis G : GoodL n C (Conn E) progs L.
Hypothesis HE : forall a b, E a b -> root L a = root L b.
Hypothesis Hinto : forall prog x j, prog ∈ progs -> Into x j ∈ prog -> near x j = true /\ core j = true.
Hypothesis not_special : minpts <> 2.

Lemma G_Pt x : x < n -> Pt n L (lab L x).
Proof.
  intros Hx. destruct (core x) eqn:Ec.
  - destruct (gl_core _ _ _ _ _ G x Ec Hx) as [H1 H2]. split; [lia|]. by apply (gl_core _ _ _ _ _ G); [|lia].
  - destruct (gl_other _ _ _ _ _ G x Hx) as [Ex|(Hc & Hn & _)]; [congruence| |].
    + rewrite !Ex. split; lia.
    + split; [done|]. by apply (gl_core _ _ _ _ _ G).
Qed.
Lemma target_core c : core c = true -> c < n -> target L c = root L c /\ core (root L c) = true.
Proof.
  intros Hc Hn. split; [by apply (conn_core_lab n C E progs)|by apply (conn_root n C E progs)].
Qed.
Lemma core_lt c : core c = true -> c < n.
Proof. intros H. by apply counts_ok in H as [? _]. Qed.

Lemma E_root a b : Conn E a b -> root L a = root L b.
Proof. induction 1; auto; congruence. Qed.
Lemma root_least c : core c = true -> LeastConn E c (root L c).
Proof.
  intros Hc. split; [by apply (gl_sound _ _ _ _ _ G), core_lt|]. intros y Hy. rewrite (E_root _ _ Hy). apply root_le.
Qed.

(** an assigned border point carries the label of a core neighbour *)
Lemma target_border x : x < n -> core x = false -> core (lab L x) = true ->
  exists j, core j = true /\ near x j = true /\ target L x = root L j /\ core (target L x) = true /\ target L (target L x) = target L x.
Proof.
  intros Hx Hcx Hl. destruct (gl_other _ _ _ _ _ G x Hx) as [Ex|(_ & Hn & prog & j & Hp & Hin & HR)]; [congruence|congruence|].
  destruct (Hinto _ _ _ Hp Hin) as [Hnear Hj]. exists j. split; [done|]. split; [done|].
  assert (target L x = root L (lab L x)) as Et by done. rewrite Et. split; [by apply E_root|].
  destruct (target_core (lab L x) Hl Hn) as [_ Hr]. split; [done|].
  destruct (target_core _ Hr (core_lt _ Hr)) as [-> _].
  apply root_ge. destruct (conn_root n C E progs L (lab L x)) as [_ ->]; auto.
Qed.
Lemma target_alone x : x < n -> core x = false -> lab L x = x -> target L x = x /\ cnt (fun j => target L j =? target L x) n = 1.
Proof.
  intros Hx Hcx Ex. assert (target L x = x) as Et by (unfold target; rewrite Ex; apply root_ge; lia).
  split; [done|]. rewrite Et. apply (cnt_one _ _ x); [done|by rewrite Et, Nat.eqb_refl|].
  intros i Hi Hti. apply Nat.eqb_eq in Hti. destruct (core i) eqn:Ec.
  - destruct (target_core i Ec Hi) as [E1 E2]. congruence.
  - destruct (core (lab L i)) eqn:El.
    + destruct (target_border i Hi Ec El) as (j & _ & _ & _ & Hc & _). congruence.
    + destruct (gl_other _ _ _ _ _ G i Hi) as [Ei|(Hc & _)]; [congruence| |congruence].
      unfold target in Hti. rewrite Ei in Hti. rewrite root_ge in Hti by lia. done.
Qed.

Section Out.
Variable out : list Z.
Hypothesis out_len : length out = n.
Hypothesis Hout : forall i, i < n -> out !! i = Some (if (cnt (fun j => target L j =? target L i) n =? 1) && ((minpts =? 2) || negb (core i))
                                    then (-1)%Z else Z.of_nat (target L i)).
Lemma out_core i : core i = true -> out !! i = Some (Z.of_nat (root L i)).
Proof.
  intros Hc. pose proof (core_lt i Hc) as Hi. rewrite (Hout i Hi), Hc. destruct (Nat.eqb_spec minpts 2); [done|].
  rewrite andb_false_r. by destruct (target_core i Hc Hi) as [-> _].
Qed.
Lemma out_corelabels : CoreLabels n minpts near out.
Proof.
  apply CoreLabels_intro. intros i Hi. apply counts_ok in Hi. exists (root L i). split; [by apply root_least|by apply out_core].
Qed.
Lemma out_alone x : x < n -> core x = false -> lab L x = x -> out !! x = Some (-1)%Z.
Proof. intros Hx Hcx Ex. rewrite (Hout x Hx), Hcx. destruct (target_alone x Hx Hcx Ex) as [_ ->]. by rewrite orb_true_r. Qed.

Lemma not_core x : ~ Core n minpts near x -> core x = false.
Proof. intros H. destruct (core x) eqn:Ec; [|done]. by apply counts_ok in Ec. Qed.

Lemma valid_star : (forall x, x < n -> core x = false -> lab L x = x) -> ValidDBSCANStar n minpts near out.
Proof.
  intros H. constructor; [done|apply out_corelabels|]. intros i Hi HN. apply not_core in HN. apply out_alone; auto.
Qed.
Lemma valid : (forall x, x < n -> core x = false -> (exists j, core j = true /\ near x j = true) -> core (lab L x) = true) ->
  ValidDBSCAN n minpts near out.
Proof.
  intros H. constructor; [done|apply out_corelabels| |].
  - intros i Hi HN (j0 & Hj0 & Hn0). apply not_core in HN. apply counts_ok in Hj0.
    assert (core (lab L i) = true) as Hl by eauto.
    destruct (target_border i Hi HN Hl) as (j & Hj & Hnj & Et & Hct & Htt). exists j. split; [by apply counts_ok|]. split; [done|].
    rewrite (out_core j Hj), (Hout i Hi).
    assert (2 <= cnt (fun y => target L y =? target L i) n) as H2.
    { apply (cnt_two _ _ i (target L i)); [done|by apply core_lt|congruence|apply Nat.eqb_refl|rewrite Htt; apply Nat.eqb_refl]. }
    destruct (Nat.eqb_spec (cnt (fun y => target L y =? target L i) n) 1); [lia|]. simpl. by rewrite Et.
  - intros i Hi HN Hno. apply not_core in HN. apply out_alone; [done|done|].
    destruct (gl_other _ _ _ _ _ G i Hi) as [Ei|(Hc & _ & prog & j & Hp & Hin & _)]; [congruence|done|].
    destruct (Hinto _ _ _ Hp Hin) as [Hnear Hj]. apply counts_ok in Hj. apply Hno in Hj. congruence.
Qed.
End Out.
End General.

(** core_min_size = 2: all points are merged, singletons are noise *)
Section Special.
Variables (n : nat) (near : nat -> nat -> bool) (progs : list (list uop)).
Hypothesis near_sym : forall a b, near a b = near b a.
Hypothesis near_refl : forall a, near a a = true.
Definition NearEdge (a b : nat) : Prop := a < n /\ b < n /\ near a b = true.
Notation E := (CoreEdge n 2 near).
Variable L : list nat.
Hypothesis G : GoodL n (fun _ => True) (Conn NearEdge) progs L.
Hypothesis HE : forall a b, NearEdge a b -> root L a = root L b.

Lemma pair_core a b : a < n -> b < n -> a <> b -> near a b = true -> Core n 2 near a.
Proof. intros Ha Hb Hne Hn. split; [done|]. by apply (cnt_two (near a) n a b). Qed.
Lemma noncore_alone a b : a < n -> ~ Core n 2 near a -> NearEdge a b -> b = a.
Proof. intros Ha HN (_ & Hb & Hn). destruct (decide (a = b)); [done|]. by destruct HN; eapply pair_core. Qed.
Lemma Near_conn a b : Conn NearEdge a b -> Conn E a b.
Proof.
  destruct (Conn_equiv E) as (R1 & R2 & R3). induction 1 as [a b H| | |]; eauto. destruct (decide (a = b)) as [->|Hne]; [done|].
  destruct H as (Ha & Hb & Hn). apply rst_step. split; [by apply (pair_core a b)|]. split; [|done].
  apply (pair_core b a); auto. by rewrite near_sym.
Qed.
Lemma E_near a b : Conn E a b -> Conn NearEdge a b.
Proof.
  destruct (Conn_equiv NearEdge) as (R1 & R2 & R3). induction 1 as [a b ([Ha _] & [Hb _] & Hn)| | |]; eauto. apply rst_step. done.
Qed.
Lemma Near_root a b : Conn NearEdge a b -> root L a = root L b.
Proof. induction 1; auto; congruence. Qed.
Lemma special_Pt x : x < n -> Pt n L (lab L x).
Proof.
  intros Hx. destruct (gl_core _ _ _ _ _ G x I Hx) as [_ H2]. split; [lia|]. by apply (gl_core _ _ _ _ _ G); [|lia].
Qed.
Lemma special_target x : x < n -> target L x = root L x.
Proof. intros Hx. by apply (conn_core_lab n (fun _ => True) NearEdge progs). Qed.

Lemma special_out counts out : length out = n ->
  (forall i, i < n -> out !! i = Some (if (cnt (fun j => target L j =? target L i) n =? 1) && ((2 =? 2) || negb (is_core counts 2 i))
                                    then (-1)%Z else Z.of_nat (target L i))) ->
  ValidDBSCAN n 2 near out /\ ValidDBSCANStar n 2 near out.
Proof.
  intros Hl Hout.
  assert (CoreLabels n 2 near out) as HC.
  { apply CoreLabels_intro. intros i [Hi Hc].
    assert (exists j, j < n /\ i <> j /\ near i j = true) as (j & Hj & Hne & Hnij).
    { destruct (List.filter (near i) (seq 0 n)) as [|a [|b l]] eqn:EF; simpl in Hc; [lia|lia|].
      assert (NoDup (a :: b :: l)) as HND.
      { rewrite <- EF. apply NoDup_ListNoDup, List.NoDup_filter, NoDup_ListNoDup, NoDup_seq. }
      assert (forall x, x ∈ a :: b :: l -> x < n /\ near i x = true) as HI.
      { intros x Hx. rewrite <- EF in Hx. apply elem_of_list_In, List.filter_In in Hx as [Hx ?]. apply in_seq in Hx. split; [lia|done]. }
      destruct (decide (i = a)) as [->|].
      - exists b. destruct (HI b) as [? ?]; [right; left|]. split; [done|]. split; [|done]. intros ->. apply NoDup_cons in HND as [HND _]. apply HND. left.
      - exists a. destruct (HI a) as [? ?]; [left|]. done. }
    exists (root L i). split.
    - split; [apply Near_conn, (gl_sound _ _ _ _ _ G); done|]. intros y Hy. rewrite (Near_root i y) by (by apply E_near). apply root_le.
    - rewrite (Hout i Hi). assert (2 <= cnt (fun y => target L y =? target L i) n) as H2.
      { apply (cnt_two _ _ i j); [done|done|done|apply Nat.eqb_refl|]. rewrite !special_target by done. apply Nat.eqb_eq.
        symmetry. apply HE. done. }
      destruct (Nat.eqb_spec (cnt (fun y => target L y =? target L i) n) 1); [lia|]. simpl. by rewrite special_target. }
  assert (forall i, i < n -> ~ Core n 2 near i -> out !! i = Some (-1)%Z) as HN.
  { intros i Hi Hc. rewrite (Hout i Hi). simpl. rewrite andb_true_r.
    assert (forall y, Conn NearEdge i y -> y = i) as Halone.
    { assert (forall a b, Conn NearEdge a b -> (a = i <-> b = i)) as HH; [|intros y Hy; by apply (HH i y)].
      induction 1 as [a b (Ha & Hb & Hn)|a|a b _ IH|a b c _ IH1 _ IH2]; [|done|by rewrite IH|by rewrite IH1].
      split; intros ->; [by apply noncore_alone; try split|]. apply noncore_alone; try split; auto. by rewrite near_sym. }
    assert (root L i = i) as Er by (apply Halone, (gl_sound _ _ _ _ _ G); done).
    assert (cnt (fun y => target L y =? target L i) n = 1) as ->; [|done].
    apply (cnt_one _ _ i); [done|apply Nat.eqb_refl|]. intros y Hy Ht. apply Nat.eqb_eq in Ht. rewrite !special_target, Er in Ht by done.
    apply Halone. destruct (Conn_equiv NearEdge) as (_ & R2 & _). apply R2. pose proof (gl_sound _ _ _ _ _ G y Logic.I Hy) as HS. by rewrite Ht in HS. }
  split; constructor; auto. intros i Hi Hc (j & [Hj Hcj] & Hn). exfalso.
  assert (j = i) as -> by (apply noncore_alone; try split; auto). apply Hc. split; done.
Qed.
End Special.

(** ** Counting neighbours *)
Lemma filter_perm {A} (f : A -> bool) l l' : l ≡ₚ l' -> List.filter f l ≡ₚ List.filter f l'.
Proof.
  induction 1 as [|x l l' _ IH|x y l|l1 l2 l3 _ IH1 _ IH2]; simpl; [done| | |by rewrite IH1].
  - by destruct (f x); rewrite IH.
  - destruct (f x), (f y); try done. apply Permutation_swap.
Qed.
Lemma count_visits minpts : forall calls st st' e, Visits (count_callback minpts) st calls st' e ->
  st' = st + length calls /\ (e = true -> minpts <= st').
Proof.
  induction calls as [|v calls IH]; intros st st' e H; inversion H as [|? ? ? Hcb|? ? ? ? ? ? Hcb HV]; subst.
  - split; [simpl; lia|done].
  - unfold count_callback in Hcb. injection Hcb as <- Hle. simpl. split; [lia|]. intros _. by apply Nat.leb_le in Hle.
  - unfold count_callback in Hcb. injection Hcb as <- Hle. destruct (IH _ _ _ HV) as [-> H2]. simpl. split; [lia|]. intros ->. apply H2 in HV || specialize (H2 eq_refl). lia.
Qed.
Lemma num_neigh_ok V (le : V -> V -> Prop) vol n perm T near pv minpts i :
  Index le vol perm T -> perm ≡ₚ seq 0 n -> (forall a, PruneSafe le vol (near a) (pv a)) ->
  exists c, num_neigh T near pv minpts i = Ok c /\ (minpts <= c <-> minpts <= length (List.filter (near i) (seq 0 n))).
Proof.
  intros HI HP Hps. destruct (spatial_query_correct le vol perm T (near i) (pv i) (count_callback minpts) HI (Hps i) 0)
    as (calls & rest & c & e & Eq & HF & HV & He). exists c. split; [done|].
  assert (length (List.filter (near i) (seq 0 n)) = length calls + length rest) as ->.
  { rewrite <- app_length, <- HF. apply Permutation_length, filter_perm. by rewrite HP. }
  destruct (count_visits _ _ _ _ _ HV) as [-> H2]. simpl. split; [lia|]. intros H. destruct e; [auto|]. rewrite (He eq_refl) in H. simpl in H. lia.
Qed.
