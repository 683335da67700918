(** One Boruvka round on the graph of components, without the machines. *)
From Verif Require Export MstProof.
Local Open Scope nat_scope.

Section Argmin.
Context {A : Type} (lt : A -> A -> bool) (SW : StrictWeak lt).
Fixpoint argmin (l : list A) : option A :=
  match l with [] => None | e :: l => match argmin l with None => Some e | Some m => Some (if lt m e then m else e) end end.
Lemma argmin_spec l : l <> [] -> exists m, argmin l = Some m /\ m ∈ l /\ forall e, e ∈ l -> lt e m = false.
Proof.
  induction l as [|a l IH]; [done|]. intros _. destruct l as [|b l].
  - exists a. split; [done|]. split; [by left|]. intros e ->%elem_of_list_singleton. apply (sw_irrefl _ SW).
  - destruct IH as (m & Hm & Hin & Hmin); [done|]. exists (if lt m a then m else a). remember (b :: l) as l'. cbn. rewrite Hm. split; [done|].
    destruct (lt m a) eqn:E.
    + split; [by right|]. intros e [->|He]%elem_of_cons; [|by apply Hmin]. destruct (lt a m) eqn:E2; [|done].
      pose proof (sw_trans _ SW _ _ _ E E2) as H. by rewrite (sw_irrefl _ SW) in H.
    + split; [by left|]. intros e [->|He]%elem_of_cons; [apply (sw_irrefl _ SW)|]. by apply (sw_incomp _ SW _ m); [apply Hmin|].
Qed.
End Argmin.

Section Round.
Context (n : nat) (lt : nat * nat -> nat * nat -> bool) (PO : PairOrder n lt).
Notation SW := (po_weak n lt PO).
Context (c : nat -> nat).
Hypothesis Hc : forall i, i < n -> c i < n.
Hypothesis Hcc : forall i, i < n -> c (c i) = c i.
(** there are two components *)
Hypothesis Htwo : exists i j, i < n /\ j < n /\ c i <> c j.

Definition Rep (r : nat) : Prop := r < n /\ c r = r.
Definition Out (r : nat) (p : nat * nat) : Prop := p.1 < n /\ p.2 < n /\ c p.1 = r /\ c p.2 <> r.
Definition all_pairs : list (nat * nat) := flat_map (fun i => (fun j => (i, j)) <$> seq 0 n) (seq 0 n).
Lemma all_pairs_spec p : p ∈ all_pairs <-> p.1 < n /\ p.2 < n.
Proof.
  unfold all_pairs. rewrite elem_of_list_In, in_flat_map. split.
  - intros (i & Hi & Hp). apply elem_of_list_In, elem_of_list_fmap in Hp as (j & -> & Hj). cbn. apply elem_of_list_In, elem_of_seq in Hi. apply elem_of_seq in Hj. lia.
  - intros [H1 H2]. exists p.1. split; [apply elem_of_list_In, elem_of_seq; lia|]. apply elem_of_list_In, elem_of_list_fmap. exists p.2.
    split; [apply surjective_pairing|apply elem_of_seq; lia].
Qed.
Global Instance out_dec r p : Decision (Out r p). Proof. unfold Out. apply _. Defined.
Definition best (r : nat) : nat * nat := default (0, 0) (argmin lt (base.filter (Out r) all_pairs)).
Lemma best_spec r : Rep r -> Out r (best r) /\ forall q, Out r q -> lt q (best r) = false.
Proof.
  intros [Hr Hcr]. destruct (argmin_spec lt SW (base.filter (Out r) all_pairs)) as (m & Hm & Hin & Hmin).
  - destruct Htwo as (i & j & Hi & Hj & Hij). assert (exists k, k < n /\ c k <> r) as (k & Hk & Hkr).
    { destruct (decide (c i = r)) as [E|E]; [exists j; split; [done|congruence]|by exists i]. }
    intros E. assert ((r, k) ∈ @nil (nat * nat)) as H; [|by apply elem_of_nil in H]. rewrite <- E. apply elem_of_list_filter.
    split; [done|]. by apply all_pairs_spec.
  - unfold best. rewrite Hm. cbn. apply elem_of_list_filter in Hin as [HO _]. split; [done|]. intros q Hq. apply Hmin, elem_of_list_filter.
    split; [done|]. destruct Hq as (? & ? & _). by apply all_pairs_spec.
Qed.
(** the smallest edge leaving a component is unique, also as a directed edge *)
Lemma best_unique r p : Rep r -> Out r p -> lt (best r) p = false -> p = best r.
Proof.
  intros Hr Hp Hl. destruct (best_spec r Hr) as [HO Hmin]. pose proof (Hmin p Hp) as Hl2.
  destruct Hp as (P1 & P2 & P3 & P4), HO as (B1 & B2 & B3 & B4).
  destruct (po_total n lt PO (best r) p) as [E|E]; auto; try congruence.
  rewrite E in P3, P4. cbn in *. congruence.
Qed.

Definition nxt (r : nat) : nat := c (best r).2.
Lemma nxt_rep r : Rep r -> Rep (nxt r) /\ nxt r <> r.
Proof. intros Hr. destruct (best_spec r Hr) as [(H1 & H2 & H3 & H4) _]. split; [split; [by apply Hc|by apply Hcc]|done]. Qed.
Lemma nxt_le r : Rep r -> lt (best r) (best (nxt r)) = false.
Proof.
  intros Hr. destruct (nxt_rep r Hr) as [Hn Hne]. destruct (best_spec r Hr) as [(H1 & H2 & H3 & H4) _].
  rewrite <- (lt_swap_l n lt PO). apply best_spec; [done|]. unfold Out, nxt. cbn. split_and!; [done..|congruence].
Qed.
Lemma mutual_same r : Rep r -> nxt (nxt r) = r -> best (nxt r) = ((best r).2, (best r).1).
Proof.
  intros Hr Hm. destruct (nxt_rep r Hr) as [Hn Hne]. symmetry. apply best_unique; [done| |].
  - destruct (best_spec r Hr) as [(H1 & H2 & H3 & H4) _]. unfold Out, nxt. cbn. split_and!; [done..|congruence].
  - rewrite (lt_swap n lt PO). pose proof (nxt_le _ Hn) as H. by rewrite Hm in H.
Qed.
Lemma not_mutual_lt r : Rep r -> nxt (nxt r) <> r -> lt (best (nxt r)) (best r) = true.
Proof.
  intros Hr Hm. destruct (nxt_rep r Hr) as [Hn Hne]. destruct (lt (best (nxt r)) (best r)) eqn:E; [done|]. exfalso. apply Hm.
  destruct (best_spec r Hr) as [(H1 & H2 & H3 & H4) _].
  assert (((best r).2, (best r).1) = best (nxt r)) as E2.
  { apply best_unique; [done| |by rewrite (lt_swap n lt PO)]. unfold Out, nxt. cbn. split_and!; [done..|congruence]. }
  change (nxt (nxt r)) with (c (best (nxt r)).2). by rewrite <- E2.
Qed.

(** computeNextComponent *)
Definition step (r : nat) : nat := if nxt (nxt r) =? r then Nat.min r (nxt r) else nxt r.
Definition rank (r : nat) : nat := length (base.filter (fun d => lt (best d) (best r) = true) (seq 0 n)).
Definition depth (r : nat) : nat := if nxt (nxt r) =? r then (if r <? nxt r then 0 else 1) else S (S (rank r)).
Lemma filter_len_mono {A} (P Q : A -> Prop) `{!forall x, Decision (P x)} `{!forall x, Decision (Q x)} (l : list A) :
  (forall x, x ∈ l -> P x -> Q x) -> length (base.filter P l) <= length (base.filter Q l).
Proof.
  induction l as [|a l IH]; intros HPQ; [done|]. rewrite !filter_cons. assert (length (base.filter P l) <= length (base.filter Q l)) by (apply IH; intros; apply HPQ; [by right|done]).
  destruct (decide (P a)) as [D|D].
  - rewrite decide_True by (apply HPQ; [by left|done]). cbn. lia.
  - destruct (decide (Q a)); cbn; lia.
Qed.
Lemma filter_len_lt {A} (P Q : A -> Prop) `{!forall x, Decision (P x)} `{!forall x, Decision (Q x)} (l : list A) a :
  (forall x, x ∈ l -> P x -> Q x) -> a ∈ l -> ~ P a -> Q a -> length (base.filter P l) < length (base.filter Q l).
Proof.
  intros HPQ Ha HP HQ. apply elem_of_list_split in Ha as (l1 & l2 & ->). rewrite !filter_app, filter_cons_False, filter_cons_True, !app_length by done. cbn.
  assert (length (base.filter P l1) <= length (base.filter Q l1)) by (apply filter_len_mono; intros; apply HPQ; [apply elem_of_app; by left|done]).
  assert (length (base.filter P l2) <= length (base.filter Q l2)) by (apply filter_len_mono; intros; apply HPQ; [apply elem_of_app; right; by right|done]). lia.
Qed.
Lemma rank_lt r : Rep r -> nxt (nxt r) <> r -> rank (nxt r) < rank r.
Proof.
  intros Hr Hm. pose proof (not_mutual_lt r Hr Hm) as Hl. destruct (nxt_rep r Hr) as [[Hn _] _]. unfold rank. apply (filter_len_lt _ _ _ (nxt r)).
  - intros d _ Hd. by apply (sw_trans _ SW _ (best (nxt r))).
  - apply elem_of_seq. lia.
  - by rewrite (sw_irrefl _ SW).
  - done.
Qed.
Lemma step_rep r : Rep r -> Rep (step r).
Proof. intros Hr. destruct (nxt_rep r Hr) as [Hn _]. unfold step. destruct (_ =? _); [|done]. by destruct (Nat.min_spec r (nxt r)) as [[_ ->]|[_ ->]]. Qed.
Lemma step_fixed r : Rep r -> step r = r <-> nxt (nxt r) = r /\ r < nxt r.
Proof.
  intros Hr. destruct (nxt_rep r Hr) as [_ Hne]. unfold step. destruct (nxt (nxt r) =? r) eqn:E.
  - apply Nat.eqb_eq in E. lia.
  - apply Nat.eqb_neq in E. split; [congruence|]. by intros [? _].
Qed.
Lemma step_depth r : Rep r -> step r <> r -> depth (step r) < depth r.
Proof.
  intros Hr Hs. destruct (nxt_rep r Hr) as [Hn Hne]. unfold depth, step in *. destruct (nxt (nxt r) =? r) eqn:E.
  - apply Nat.eqb_eq in E. assert (nxt r < r) as Hlt by lia. rewrite Nat.min_r by lia. rewrite E, Nat.eqb_refl.
    rewrite (proj2 (Nat.ltb_lt _ _)) by lia. rewrite (proj2 (Nat.ltb_ge _ _)) by lia. lia.
  - apply Nat.eqb_neq in E. destruct (nxt (nxt (nxt r)) =? nxt r); [destruct (_ <? _); lia|]. pose proof (rank_lt r Hr E). lia.
Qed.
Lemma rank_bound r : rank r <= n.
Proof. unfold rank. etransitivity; [apply filter_length|]. by rewrite seq_length. Qed.
Lemma depth_bound r : depth r <= n + 2.
Proof. unfold depth. pose proof (rank_bound r). destruct (_ =? _); [destruct (_ <? _)|]; lia. Qed.

(** computeFinalComponent *)
Definition fin (r : nat) : nat := Nat.iter (n + 2) step r.
Lemma iter_rep k r : Rep r -> Rep (Nat.iter k step r).
Proof. intros Hr. induction k; [done|]. by apply (step_rep (Nat.iter k step r)). Qed.
Lemma iter_fixed k r : step r = r -> Nat.iter k step r = r.
Proof. intros Hr. induction k as [|k IH]; [done|]. change (Nat.iter (S k) step r) with (step (Nat.iter k step r)). by rewrite IH. Qed.
Lemma iter_reaches k r : Rep r -> depth r <= k -> step (Nat.iter k step r) = Nat.iter k step r.
Proof.
  revert r. induction k as [|k IH]; intros r Hr Hd.
  - cbn. destruct (decide (step r = r)) as [E|E]; [done|]. pose proof (step_depth r Hr E). lia.
  - rewrite Nat.iter_succ_r. destruct (decide (step r = r)) as [E|E].
    + rewrite E. by rewrite iter_fixed.
    + apply IH; [by apply step_rep|]. pose proof (step_depth r Hr E). lia.
Qed.
Lemma fin_rep r : Rep r -> Rep (fin r). Proof. apply iter_rep. Qed.
Lemma fin_fixed r : Rep r -> step (fin r) = fin r.
Proof. intros Hr. apply iter_reaches; [done|]. apply depth_bound. Qed.
Lemma fin_of_fixed r : step r = r -> fin r = r. Proof. apply iter_fixed. Qed.
Lemma fin_step r : Rep r -> fin (step r) = fin r.
Proof.
  intros Hr. unfold fin. rewrite <- Nat.iter_succ_r. change (Nat.iter (S (n + 2)) step r) with (step (Nat.iter (n + 2) step r)). by apply fin_fixed.
Qed.
Lemma fin_nxt r : Rep r -> fin (nxt r) = fin r.
Proof.
  intros Hr. destruct (nxt_rep r Hr) as [Hn Hne]. destruct (decide (nxt (nxt r) = r)) as [E|E].
  - destruct (decide (r < nxt r)) as [L|L].
    + rewrite <- (fin_step _ Hn). unfold step. rewrite E, Nat.eqb_refl, Nat.min_r by lia. done.
    + rewrite <- (fin_step _ Hr). unfold step. rewrite E, Nat.eqb_refl, Nat.min_r by lia. done.
  - rewrite <- (fin_step r Hr). unfold step. by rewrite (proj2 (Nat.eqb_neq _ _)).
Qed.

(** The edges added by the round, in the order of the list of components [rs]. *)
Definition Adds (r : nat) : Prop := Rep r /\ step r <> r.
Global Instance rep_dec r : Decision (Rep r). Proof. unfold Rep. apply _. Defined.
Global Instance adds_dec r : Decision (Adds r). Proof. unfold Adds. apply _. Defined.

Lemma added_kruskal r : Rep r -> Kruskal n lt (best r).
Proof.
  intros Hr. destruct (best_spec r Hr) as [(H1 & H2 & H3 & H4) Hmin]. split_and!; [done|done|congruence|].
  intros Hconn. apply H4. refine (proj1 (conn_closed _ (fun i => c i = r) _ _ _ Hconn) H3).
  intros a b (Ha & Hb & Hl). split; intros E; apply dec_stable; intros Hne.
  - rewrite (Hmin (a, b)) in Hl; done.
  - pose proof (Hmin (b, a)) as H. rewrite <- (lt_swap_l n lt PO) in H. cbn in H. rewrite H in Hl; done.
Qed.
Lemma added_distinct r r' : Adds r -> Adds r' -> SamePair (best r) (best r') -> r = r'.
Proof.
  intros [Hr Hs] [Hr' Hs'] HS. destruct (best_spec r Hr) as [(H1 & H2 & H3 & H4) _], (best_spec r' Hr') as [(K1 & K2 & K3 & K4) _].
  destruct HS as [E|E]; [congruence|]. exfalso.
  assert (nxt r = r') as N1 by (unfold nxt; rewrite <- K3, E; done). assert (nxt r' = r) as N2 by (unfold nxt; rewrite E; done).
  destruct (decide (r < r')).
  - apply Hs, step_fixed; [done|]. rewrite N1, N2. done.
  - apply Hs', step_fixed; [done|]. rewrite N2, N1. destruct (nxt_rep r Hr) as [_ Hne]. split; [done|]. rewrite N1 in Hne. lia.
Qed.

(** Connectivity after the round. *)
Section Conn.
Context (F : list (nat * nat)) (order : list nat).
Hypothesis HF : forall a b, a < n -> b < n -> Conn (InList F) a b <-> c a = c b.
Hypothesis HFn : forall a b, (a, b) ∈ F -> a < n /\ b < n /\ a <> b.
Hypothesis Horder : forall r, r ∈ order <-> Adds r.
Definition F' : list (nat * nat) := F ++ (best <$> order).
Lemma F'_old a b : Conn (InList F) a b -> Conn (InList F') a b.
Proof. apply conn_mono. intros x y H. apply elem_of_app. by left. Qed.
Lemma F'_proper a b : (a, b) ∈ F' -> a < n /\ b < n /\ a <> b.
Proof.
  intros [H|H]%elem_of_app; [by apply HFn|]. apply elem_of_list_fmap in H as (r & E & [Hr _]%Horder).
  destruct (best_spec r Hr) as [(H1 & H2 & H3 & H4) _]. rewrite <- E in *. cbn in *. split_and!; [done..|]. congruence.
Qed.
Lemma conn_nxt r : Rep r -> Conn (InList F') r (nxt r).
Proof.
  intros Hr. destruct (best_spec r Hr) as [(H1 & H2 & H3 & H4) _]. destruct (nxt_rep r Hr) as [Hn Hne].
  assert (Conn (InList F') (best r).1 (best r).2) as Hb.
  { destruct (decide (step r = r)) as [E|E].
    - apply (step_fixed r Hr) in E as [E L]. pose proof (mutual_same r Hr E) as HM. apply conn_sym, conn_step. unfold InList, F'.
      apply elem_of_app. right. apply elem_of_list_fmap. exists (nxt r). split; [done|]. apply Horder. split; [done|].
      intros Hf%step_fixed; [|done]. rewrite E in Hf. lia.
    - apply conn_step. unfold InList, F'. apply elem_of_app. right. apply elem_of_list_fmap. exists r. rewrite <- surjective_pairing. split; [done|]. by apply Horder. }
  assert (Conn (InList F') r (best r).1) as Ha. { apply F'_old, HF; [apply Hr|done|]. destruct Hr as [_ ->]. done. }
  assert (Conn (InList F') (best r).2 (nxt r)) as Hd. { apply F'_old, HF; [done|apply Hn|]. destruct Hn as [_ ->]. done. }
  eauto using conn_trans.
Qed.
Lemma conn_fin r : Rep r -> Conn (InList F') r (fin r).
Proof.
  intros Hr. unfold fin. induction (n + 2) as [|k IH]; [apply conn_refl|]. apply (conn_trans _ _ _ _ IH).
  change (Nat.iter (S k) step r) with (step (Nat.iter k step r)).
  pose proof (iter_rep k r Hr) as Hk. set (x := Nat.iter k step r) in *. unfold step. destruct (_ =? _); [|by apply conn_nxt].
  destruct (Nat.min_spec x (nxt x)) as [[_ ->]|[_ ->]]; [apply conn_refl|by apply conn_nxt].
Qed.
Lemma conn_round a b : a < n -> b < n -> Conn (InList F') a b <-> fin (c a) = fin (c b).
Proof.
  assert (Hrep : forall i, i < n -> Rep (c i)) by (intros; split; auto).
  assert (Hci : forall i, i < n -> Conn (InList F') i (c i)) by (intros i Hi; apply F'_old, HF; auto; by rewrite Hcc).
  intros Ha Hb. split.
  - intros Hconn. assert (a < n /\ fin (c a) = fin (c b) <-> b < n /\ fin (c b) = fin (c b)) as HE; [|by apply HE].
    apply (conn_closed (InList F') (fun i => i < n /\ fin (c i) = fin (c b))); [|done]. clear a Ha Hconn.
    intros x y Hxy. destruct (F'_proper _ _ Hxy) as (Hx & Hy & _). assert (fin (c x) = fin (c y)) as E; [|rewrite E; tauto].
    apply elem_of_app in Hxy as [H|H].
    + f_equal. apply HF; [done..|]. by apply conn_step.
    + apply elem_of_list_fmap in H as (r & E & [Hr _]%Horder). destruct (best_spec r Hr) as [(H1 & H2 & H3 & H4) _].
      rewrite <- E in *. cbn in *. rewrite H3, <- (fin_nxt r Hr). unfold nxt. by rewrite <- E.
  - intros E. apply (conn_trans _ _ (c a)); [by apply Hci|]. apply (conn_trans _ _ (fin (c a))); [by apply conn_fin, Hrep|].
    apply conn_sym. apply (conn_trans _ _ (c b)); [by apply Hci|]. rewrite E. by apply conn_fin, Hrep.
Qed.
Lemma norepeat_round : NoRepeat F -> NoDup order -> NoRepeat F'.
Proof.
  intros HN HD i j e f Hi Hj HS. unfold F' in *. apply lookup_app_Some in Hi, Hj.
  assert (Hcross : forall e f, e ∈ F -> f ∈ best <$> order -> SamePair e f -> False).
  { intros e0 f0 He Hf Hs. apply elem_of_list_fmap in Hf as (r & -> & [Hr _]%Horder). destruct (best_spec r Hr) as [(H1 & H2 & H3 & H4) _].
    destruct e0 as [a b]. destruct (HFn a b He) as (Ha & Hb & _). assert (c a = c b) as E by (apply HF; [done..|by apply conn_step]).
    destruct Hs as [E2|E2]; rewrite E2 in *; cbn in *; congruence. }
  destruct Hi as [Hi|[Hi1 Hi]], Hj as [Hj|[Hj1 Hj]].
  - by apply (HN i j e f).
  - exfalso. apply (Hcross e f); [by eapply elem_of_list_lookup_2|by eapply elem_of_list_lookup_2|done].
  - exfalso. apply (Hcross f e); [by eapply elem_of_list_lookup_2|by eapply elem_of_list_lookup_2|by apply same_sym].
  - rewrite list_lookup_fmap in Hi, Hj. destruct (order !! (i - length F)) as [r|] eqn:E1; [|done]. destruct (order !! (j - length F)) as [r'|] eqn:E2; [|done].
    injection Hi as <-. injection Hj as <-. assert (r = r') as ->.
    { apply added_distinct; [apply Horder; by eapply elem_of_list_lookup_2|apply Horder; by eapply elem_of_list_lookup_2|done]. }
    pose proof (NoDup_lookup _ _ _ _ HD E1 E2). lia.
Qed.
End Conn.

(** Counting components. *)
Definition comps (d : nat -> nat) : nat := length (base.filter (fun i => d i = i) (seq 0 n)).
Definition c' (i : nat) : nat := fin (c i).
Lemma c'_lt i : i < n -> c' i < n.
Proof. intros Hi. apply fin_rep. split; auto. Qed.
Lemma c'_idem i : i < n -> c' (c' i) = c' i.
Proof.
  intros Hi. assert (Rep (c i)) as Hr by (split; auto). unfold c'. destruct (fin_rep _ Hr) as [_ E]. rewrite E. apply fin_of_fixed, fin_fixed, Hr.
Qed.
Lemma c'_rep i : i < n -> c' i = i <-> Rep i /\ step i = i.
Proof.
  intros Hi. assert (Rep (c i)) as Hr by (split; auto). unfold c'. split.
  - intros E. pose proof (fin_rep _ Hr) as H1. pose proof (fin_fixed _ Hr) as H2. rewrite E in *. done.
  - intros [[_ E] Hs]. rewrite E. by apply fin_of_fixed.
Qed.
Lemma filter_split {A} (P Q : A -> Prop) `{!forall x, Decision (P x)} `{!forall x, Decision (Q x)} (l : list A) :
  length (base.filter P l) = length (base.filter (fun x => P x /\ Q x) l) + length (base.filter (fun x => P x /\ ~ Q x) l).
Proof.
  induction l as [|a l IH]; [done|]. rewrite !filter_cons. destruct (decide (P a)), (decide (P a /\ Q a)), (decide (P a /\ ~ Q a)); cbn; try tauto; lia.
Qed.
Lemma filter_ext_len {A} (P Q : A -> Prop) `{!forall x, Decision (P x)} `{!forall x, Decision (Q x)} (l : list A) :
  (forall x, x ∈ l -> P x <-> Q x) -> length (base.filter P l) = length (base.filter Q l).
Proof. intros HPQ. apply Nat.le_antisymm; apply filter_len_mono; intros; by apply HPQ. Qed.
Lemma comps_split order : NoDup order -> (forall r, r ∈ order <-> Adds r) -> comps c = comps c' + length order.
Proof.
  intros HD HO. unfold comps. rewrite (filter_split (fun i => c i = i) (fun i => step i = i)). f_equal.
  - apply filter_ext_len. intros i [_ Hi]%elem_of_seq. rewrite c'_rep by lia. unfold Rep. split; [intros [? ?]|intros [[? ?] ?]]; split_and!; auto; lia.
  - apply Permutation_length. apply NoDup_Permutation; [apply NoDup_filter, NoDup_seq|done|]. intros r. rewrite HO, elem_of_list_filter, elem_of_seq.
    unfold Adds, Rep. split; [intros [[? ?] ?]|intros [[? ?] ?]]; split_and!; auto; lia.
Qed.
Lemma comps_half : 2 * comps c' <= comps c.
Proof.
  unfold comps. rewrite (filter_split (fun i => c i = i) (fun i => step i = i)).
  assert (length (base.filter (fun i => c' i = i) (seq 0 n)) = length (base.filter (fun i => c i = i /\ step i = i) (seq 0 n))) as E.
  { apply filter_ext_len. intros i [_ Hi]%elem_of_seq. rewrite c'_rep by lia. unfold Rep. split; [intros [[? ?] ?]|intros [? ?]]; split_and!; auto; lia. }
  rewrite E. assert (length (base.filter (fun i => c i = i /\ step i = i) (seq 0 n)) <= length (base.filter (fun i => c i = i /\ step i <> i) (seq 0 n))); [|lia].
  rewrite <- (fmap_length nxt). apply submseteq_length, NoDup_submseteq.
  - apply NoDup_fmap_2_strong; [|apply NoDup_filter, NoDup_seq]. intros x y Hx Hy Exy.
    apply elem_of_list_filter in Hx as [[X1 X2] X3%elem_of_seq], Hy as [[Y1 Y2] Y3%elem_of_seq].
    apply step_fixed in X2 as [X2 _]; [|split; [lia|done]]. apply step_fixed in Y2 as [Y2 _]; [|split; [lia|done]]. congruence.
  - intros y Hy. apply elem_of_list_fmap in Hy as (x & -> & Hx). apply elem_of_list_filter in Hx as [[X1 X2] X3%elem_of_seq].
    assert (Rep x) as Hx by (split; [lia|done]). apply step_fixed in X2 as [X2 X4]; [|done]. destruct (nxt_rep x Hx) as [Hn _].
    apply elem_of_list_filter. split; [|apply elem_of_seq; destruct Hn; lia]. split; [apply Hn|]. intros Hf. apply step_fixed in Hf as [_ L]; [|done].
    rewrite X2 in L. lia.
Qed.
Lemma comps_pos : 1 <= comps c'.
Proof.
  unfold comps. destruct Htwo as (i & _ & Hi & _). assert (c' i ∈ base.filter (fun i => c' i = i) (seq 0 n)) as H.
  { apply elem_of_list_filter. split; [by apply c'_idem|]. apply elem_of_seq. pose proof (c'_lt i Hi). lia. }
  destruct (base.filter _ _); [by apply elem_of_nil in H|cbn; lia].
Qed.
End Round.
