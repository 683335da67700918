(** C22, C23: DBSCAN and DBSCAN* (FDBSCAN implementation), for every interleaving of every kernel. *)
From Verif Require Import TraversalSpec TraversalProof PropertiesNeighbor PropertiesTraversal TreeConstructionProof.
From Verif Require Export DbscanProof.
Local Open Scope nat_scope.

(** a kernel of union-find operations without guards *)
Lemma uf_kernel n (C : nat -> Prop) (E : nat -> nat -> Prop) progs L0 (post : ustate -> Prop) :
  (forall prog op, prog ∈ progs -> op ∈ prog -> op_ok n C (Conn E) op) ->
  GoodL n C (Conn E) progs L0 ->
  (forall s, GoodL n C (Conn E) progs (u_labels s) -> up n C L0 (u_labels s) ->
      (forall prog, prog ∈ progs -> Exec C (u_labels s) prog []) -> post s) ->
  Kernel ustep ulive (uinit L0 progs) post.
Proof.
  intros HO G0 HP. destruct (Conn_equiv E) as (R1 & R2 & R3). exists (K n * sum_list_with length progs). intros ts s He.
  destruct (uexec_ok n C (Conn E) progs R1 R2 R3 HO L0 ts s G0 He) as (I & U & Hb). split; [done|].
  split; [intros t (th & Ht & Hne); by eapply (ustep_progress n C (Conn E) progs)|].
  intros HD. apply HP; [apply I|done|]. apply (udone_ok n C (Conn E) progs); [done|]. intros t th Ht.
  destruct (snd th) eqn:Es; [|done]. exfalso. apply (HD t). exists th. split; [done|]. by rewrite Es.
Qed.

Lemma fd_guard star core outs prog : prog ∈ fdbscan_progs star core outs -> forall i j k, Guard i j k ∉ prog.
Proof.
  intros Hp i j k Hin. apply elem_of_list_In, in_map_iff in Hp as (o & <- & _). apply elem_of_list_In, in_flat_map in Hin as ([a b] & _ & H).
  unfold fdbscan_callback in H. destruct star, (core a), (core b); simpl in H; by intuition congruence.
Qed.
Lemma fd_ops star core outs prog op : prog ∈ fdbscan_progs star core outs -> op ∈ prog ->
  exists a b, (a, b) ∈ concat outs /\ In op (fdbscan_callback star core (a, b)).
Proof.
  intros Hp Hin. apply elem_of_list_In, in_map_iff in Hp as (o & <- & Ho). apply elem_of_list_In, in_flat_map in Hin as ([a b] & Hab & H).
  exists a, b. split; [|done]. apply elem_of_list_In, in_concat. eauto.
Qed.
Lemma fd_has star core outs a b op : (a, b) ∈ concat outs -> In op (fdbscan_callback star core (a, b)) ->
  exists prog, prog ∈ fdbscan_progs star core outs /\ op ∈ prog.
Proof.
  intros Hab Hop. apply elem_of_list_In, in_concat in Hab as (o & Ho & Hab). exists (flat_map (fdbscan_callback star core) o).
  split; [apply elem_of_list_In, in_map_iff; eauto|]. apply elem_of_list_In, in_flat_map. eauto.
Qed.

Section Pairs.
Variables (n minpts : nat) (near : nat -> nat -> bool) (counts : list nat) (outs : list (list (nat * nat))).
Hypothesis near_sym : forall a b, near a b = near b a.
Hypothesis near_refl : forall a, near a a = true.
Hypothesis PO : PairsOnce near n (concat outs).
Notation core := (is_core counts minpts).
Notation C := (fun c : nat => core c = true).
Notation E := (CoreEdge n minpts near).

Lemma fdbscan_general (star : bool) (post : list Z -> Prop) : minpts <> 2 -> (forall i, core i = true <-> Core n minpts near i) ->
  (forall out, (if star then ValidDBSCANStar n minpts near out else ValidDBSCAN n minpts near out) -> post out) ->
  fdbscan star n minpts counts outs post.
Proof.
  intros Hm Hcounts Hpost. unfold fdbscan, merge_progs. destruct (Nat.eqb_spec minpts 2) as [|_]; [done|].
  destruct PO as (_ & P1 & P2).
  assert (forall prog op, prog ∈ fdbscan_progs star core outs -> op ∈ prog ->
    match op with
    | Merge i j => core i = true /\ core j = true /\ i < n /\ j < n /\ near i j = true
    | Into x j => star = false /\ core x = false /\ core j = true /\ x < n /\ j < n /\ near x j = true
    | Guard _ _ _ => False end) as HO.
  { intros prog op Hp Hop. destruct (fd_ops _ _ _ _ _ Hp Hop) as (a & b & Hab & H). destruct (P1 _ _ Hab) as (_ & Ha & Hb & Hn & _).
    unfold fdbscan_callback in H. destruct star, (core a) eqn:Ea, (core b) eqn:Eb; simpl in H; try done;
      destruct H as [<-|[]]; repeat split; auto; by rewrite near_sym. }
  apply (uf_kernel n C E).
  - intros prog op Hp Hop. pose proof (HO _ _ Hp Hop) as H. destruct op as [i j|x j|]; simpl; [| |done].
    + destruct H as (?&?&?&?&?). split; [done|]. split; [done|]. apply rst_step. split; [by apply Hcounts|]. split; [by apply Hcounts|done].
    + destruct H as (_&Hx&?&?&?&?). rewrite Hx. done.
  - apply GoodL_seq. intros. apply rst_refl.
  - intros s G _ HEx.
    assert (forall a b, E a b -> root (u_labels s) a = root (u_labels s) b) as HE.
    { intros a b ([Ha Ha'] & [Hb Hb'] & Hn). destruct (decide (a = b)) as [->|Hne]; [done|].
      assert (core a = true) as Ca by (by apply Hcounts). assert (core b = true) as Cb by (by apply Hcounts).
      destruct (P2 a b Ha Hb Hne Hn) as [Hab|Hab].
      - destruct (fd_has star core outs a b (Merge a b) Hab) as (prog & Hp & Hop).
        { unfold fdbscan_callback. rewrite Ca, Cb. simpl. rewrite andb_false_r. simpl. auto. }
        eapply Exec_merged; [by eapply fd_guard|by apply HEx|done].
      - destruct (fd_has star core outs b a (Merge b a) Hab) as (prog & Hp & Hop).
        { unfold fdbscan_callback. rewrite Ca, Cb. simpl. rewrite andb_false_r. simpl. auto. }
        symmetry. eapply Exec_merged; [by eapply fd_guard|by apply HEx|done]. }
    assert (forall prog x j, prog ∈ fdbscan_progs star core outs -> Into x j ∈ prog -> near x j = true /\ core j = true) as HI.
    { intros prog x j Hp Hop. pose proof (HO _ _ Hp Hop) as H. simpl in H. tauto. }
    apply (finish_ok n); [apply G|by eapply (G_Pt n minpts near counts)|]. intros out Hl Hout. apply Hpost. destruct star.
    + eapply valid_star; eauto. intros x Hx Hcx. destruct (gl_other _ _ _ _ _ G x Hx) as [Ex|(_ & _ & prog & j & Hp & Hop & _)];
        [congruence|done|]. pose proof (HO _ _ Hp Hop) as H. simpl in H. by destruct H.
    + eapply valid; eauto. intros x Hx Hcx (j & Hj & Hn).
      assert (x <> j) as Hne by congruence. assert (j < n) as Hjn by (by apply Hcounts in Hj as [? _]).
      destruct (P2 x j Hx Hjn Hne Hn) as [Hab|Hab].
      * destruct (fd_has false core outs x j (Into x j) Hab) as (prog & Hp & Hop).
        { unfold fdbscan_callback. rewrite Hcx, Hj. simpl. auto. }
        apply (Exec_assigned C _ prog x j); [by eapply fd_guard|by apply HEx|done].
      * destruct (fd_has false core outs j x (Into x j) Hab) as (prog & Hp & Hop).
        { unfold fdbscan_callback. rewrite Hcx, Hj. simpl. auto. }
        apply (Exec_assigned C _ prog x j); [by eapply fd_guard|by apply HEx|done].
Qed.

Lemma fdbscan_special (star : bool) (post : list Z -> Prop) : minpts = 2 ->
  (forall out, (if star then ValidDBSCANStar n minpts near out else ValidDBSCAN n minpts near out) -> post out) ->
  fdbscan star n minpts counts outs post.
Proof.
  intros -> Hpost. unfold fdbscan, merge_progs. rewrite Nat.eqb_refl. destruct PO as (_ & P1 & P2).
  assert (forall prog op, prog ∈ fdbscan_progs false (fun _ => true) outs -> op ∈ prog ->
    exists i j, op = Merge i j /\ i < n /\ j < n /\ near i j = true) as HO.
  { intros prog op Hp Hop. destruct (fd_ops _ _ _ _ _ Hp Hop) as (a & b & Hab & [<-|[]]). destruct (P1 _ _ Hab) as (_ & Ha & Hb & Hn & _).
    eauto 10. }
  apply (uf_kernel n (fun _ => True) (NearEdge n near)).
  - intros prog op Hp Hop. destruct (HO _ _ Hp Hop) as (i & j & -> & ? & ? & ?). simpl. split; [done|]. split; [done|]. apply rst_step. done.
  - apply GoodL_seq. intros. apply rst_refl.
  - intros s G _ HEx.
    assert (forall a b, NearEdge n near a b -> root (u_labels s) a = root (u_labels s) b) as HE.
    { intros a b (Ha & Hb & Hn). destruct (decide (a = b)) as [->|Hne]; [done|].
      destruct (P2 a b Ha Hb Hne Hn) as [Hab|Hab].
      - destruct (fd_has false (fun _ => true) outs a b (Merge a b) Hab) as (prog & Hp & Hop); [simpl; auto|].
        eapply Exec_merged; [by eapply fd_guard|by apply HEx|done].
      - destruct (fd_has false (fun _ => true) outs b a (Merge b a) Hab) as (prog & Hp & Hop); [simpl; auto|].
        symmetry. eapply Exec_merged; [by eapply fd_guard|by apply HEx|done]. }
    apply (finish_ok n); [apply G|by eapply special_Pt|]. intros out Hl Hout.
    destruct (special_out n near _ near_sym near_refl (u_labels s) G HE counts out Hl Hout) as [V1 V2].
    apply Hpost. by destruct star.
Qed.
End Pairs.

Lemma counts_exist V (le : V -> V -> Prop) vol n perm T near pv minpts :
  Index le vol perm T -> perm ≡ₚ seq 0 n -> (forall a, PruneSafe le vol (near a) (pv a)) ->
  exists counts, length counts = n /\ forall i c, counts !! i = Some c -> num_neigh T near pv minpts i = Ok c.
Proof.
  intros HI HP Hps. assert (forall m, exists counts, length counts = m /\ forall i c, counts !! i = Some c -> num_neigh T near pv minpts i = Ok c) as H; [|apply H].
  induction m as [|m (counts & Hl & H)]; [by exists []|].
  destruct (num_neigh_ok V le vol n perm T near pv minpts m HI HP Hps) as (c & Hc & _). exists (counts ++ [c]).
  split; [rewrite app_length; simpl; lia|]. intros i c' Hi. apply lookup_app_Some in Hi as [Hi|[Hge Hi]]; [by apply H|].
  destruct (i - length counts) as [|d] eqn:Ei; [|done]. injection Hi as <-. assert (i = m) as -> by lia. done.
Qed.

Definition CountsOf {V} (T : tree V) near pv n minpts (counts : list nat) : Prop :=
  length counts = n /\ forall i c, counts !! i = Some c -> num_neigh T near pv minpts i = Ok c.
Definition PairsOf {V} (T : tree V) near pv (outs : list (list (nat * nat))) : Prop :=
  Forall2 (fun i out => half_thread T near pv i = Ok out) (half_threads T) outs.

Lemma counts_core V (le : V -> V -> Prop) vol n perm T near pv minpts counts :
  Index le vol perm T -> perm ≡ₚ seq 0 n -> (forall a, PruneSafe le vol (near a) (pv a)) -> 1 <= minpts ->
  CountsOf T near pv n minpts counts -> forall i, is_core counts minpts i = true <-> Core n minpts near i.
Proof.
  intros HI HP Hps Hm [Hl Hc] i. unfold is_core. rewrite Nat.leb_le. unfold Core. destruct (counts !! i) as [c|] eqn:Ei; simpl.
  - destruct (num_neigh_ok V le vol n perm T near pv minpts i HI HP Hps) as (c' & Ec & Hiff).
    rewrite (Hc _ _ Ei) in Ec. injection Ec as <-. unfold id. rewrite Hiff. apply lookup_lt_Some in Ei. split; [split; [lia|done]|by intros []].
  - apply lookup_ge_None in Ei. split; [lia|]. intros [? _]. lia.
Qed.

Lemma fdbscan_ok V (le : V -> V -> Prop) vol n perm T near pv minpts (star : bool) counts outs (post : list Z -> Prop) :
  Index le vol perm T -> perm ≡ₚ seq 0 n -> (forall a, PruneSafe le vol (near a) (pv a)) ->
  (forall a b, near a b = near b a) -> (forall a, near a a = true) -> 2 <= minpts ->
  (minpts <> 2 -> CountsOf T near pv n minpts counts) -> PairsOf T near pv outs ->
  (forall out, (if star then ValidDBSCANStar n minpts near out else ValidDBSCAN n minpts near out) -> post out) ->
  fdbscan star n minpts counts outs post.
Proof.
  intros HI HP Hps Hs Hr Hm HC HF Hpost.
  pose proof (half_pairs_once V le vol n perm T near pv outs HI HP Hps Hs HF) as PO.
  destruct (decide (minpts = 2)) as [E|E].
  - by apply (fdbscan_special n minpts near counts outs Hs Hr PO).
  - apply (fdbscan_general n minpts near counts outs Hs PO); [done| |done].
    eapply counts_core; eauto. lia.
Qed.

(** The counting query and the half traversal finish without error (any tree, see C04 and C09); whatever interleaving the
    union-find kernel and the finalization kernel take, both are bounded, no access is undefined, and the resulting labels
    are a valid DBSCAN clustering. *)
Theorem C22_fdbscan_valid :
  forall V (le : V -> V -> Prop) vol n perm T near pv minpts,
  Index le vol perm T -> perm ≡ₚ seq 0 n -> (forall a, PruneSafe le vol (near a) (pv a)) ->
  (forall a b, near a b = near b a) -> (forall a, near a a = true) -> 2 <= minpts ->
  exists counts outs, CountsOf T near pv n minpts counts /\ PairsOf T near pv outs /\
    fdbscan false n minpts counts outs (ValidDBSCAN n minpts near).
Proof.
  intros V le vol n perm T near pv minpts HI HP Hps Hs Hr Hm.
  destruct (counts_exist V le vol n perm T near pv minpts HI HP Hps) as (counts & HC).
  destruct (C09_half_traversal_pairs_once V le vol perm T near pv HI) as (outs & HF & _); [rewrite HP; apply NoDup_seq|done|done|].
  exists counts, outs. split; [done|]. split; [done|]. eapply (fdbscan_ok V le vol n perm T near pv minpts false); eauto.
Qed.

Theorem C23_dbscan_star_valid :
  forall V (le : V -> V -> Prop) vol n perm T near pv minpts,
  Index le vol perm T -> perm ≡ₚ seq 0 n -> (forall a, PruneSafe le vol (near a) (pv a)) ->
  (forall a b, near a b = near b a) -> (forall a, near a a = true) -> 2 <= minpts ->
  exists counts outs, CountsOf T near pv n minpts counts /\ PairsOf T near pv outs /\
    fdbscan true n minpts counts outs (ValidDBSCANStar n minpts near).
Proof.
  intros V le vol n perm T near pv minpts HI HP Hps Hs Hr Hm.
  destruct (counts_exist V le vol n perm T near pv minpts HI HP Hps) as (counts & HC).
  destruct (C09_half_traversal_pairs_once V le vol perm T near pv HI) as (outs & HF & _); [rewrite HP; apply NoDup_seq|done|done|].
  exists counts, outs. split; [done|]. split; [done|]. eapply (fdbscan_ok V le vol n perm T near pv minpts true); eauto.
Qed.
Print Assumptions C22_fdbscan_valid.
Print Assumptions C23_dbscan_star_valid.

(** Example: the six points 5, 1, 9, 1, 20, 14 of PropertiesTraversal, eps = 4, three points per core point.  The tree is
    built by the model of the construction; point 2 is a border point, 4 and 5 are noise. *)
Definition line_near (a b : nat) : bool := (zdist (nth a [5; 1; 9; 1; 20; 14]%Z 0%Z, 0, 0)%Z (line_vol b) <=? 16)%Z.
Definition line_pv (a : nat) (v : zbox) : bool := (zdist (nth a [5; 1; 9; 1; 20; 14]%Z 0%Z, 0, 0)%Z v <=? 16)%Z.
Example line_hyps : Index zle line_vol line_perm line_tree /\ line_perm ≡ₚ seq 0 6 /\
  (forall a, PruneSafe zle line_vol (line_near a) (line_pv a)) /\ (forall a b, line_near a b = line_near b a) /\ (forall a, line_near a a = true).
Proof.
  split; [exact line_index|]. split; [apply (bool_decide_unpack _); vm_compute; reflexivity|]. split; [apply C09_example|].
  assert (forall x y : Z, zdist (x, 0, 0)%Z (pt3 y 0 0) = ((x - y) * (x - y))%Z) as HD.
  { intros x y. unfold zdist, pt3, gap. simpl. destruct (Z.max_spec 0 (Z.max (y - x) (x - y))) as [[? ->]|[? ->]];
      destruct (Z.max_spec (y - x) (x - y)) as [[? E]|[? E]]; rewrite ?E in *; nia. }
  unfold line_near, line_vol. split; intros; rewrite !HD; [f_equal; ring|]. apply Z.leb_le. nia.
Qed.
Definition fdbscan_exec (star : bool) (n minpts : nat) (counts : list nat) (outs : list (list (nat * nat))) (ts1 ts2 : list nat) : option (list Z) :=
  s ← urun (uinit (seq 0 n) (merge_progs star minpts counts outs)) ts1;
  s' ← frun (finit (u_labels s)) ts2;
  mark_noise (minpts =? 2) (is_core counts minpts) (f_sizes s') (f_labels s').
Definition line_counts (minpts : nat) : list nat :=
  map (fun i => match num_neigh line_tree line_near line_pv minpts i with Ok c => c | _ => 0 end) (seq 0 6).
Definition line_outs : list (list (nat * nat)) :=
  map (fun i => match half_thread line_tree line_near line_pv i with Ok o => o | _ => [] end) (half_threads line_tree).
Definition robin (k m : nat) : list nat := concat (replicate k (seq 0 m)).
Example C22_example : line_counts 3 = [3; 3; 2; 3; 1; 1] /\
  fdbscan_exec false 6 3 (line_counts 3) line_outs (robin 20 6) (robin 12 6) = Some [0; 0; 0; 0; -1; -1]%Z.
Proof. vm_compute. split; reflexivity. Qed.
Example C23_example :
  fdbscan_exec true 6 3 (line_counts 3) line_outs (robin 20 6) (robin 12 6) = Some [0; 0; -1; 0; -1; -1]%Z /\
  fdbscan_exec true 6 2 [] line_outs (rev (robin 20 6)) (robin 12 6) = Some [0; 0; 0; 0; -1; -1]%Z.
Proof. vm_compute. split; reflexivity. Qed.
