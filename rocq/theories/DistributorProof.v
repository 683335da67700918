(** Proofs about the communication plan. *)
From Coq Require Import Sorting.Sorted.
From stdpp Require Import sorting.
From Verif Require Import Base KernelAlgModel KernelAlgProof CrsProof DistributorModel DistributorSpec.

Notation cntb f l := (length (List.filter f l)).

Lemma list_filter_app {A} (f : A -> bool) l k : List.filter f (l ++ k) = List.filter f l ++ List.filter f k.
Proof. induction l as [|a l IH]; simpl; [done|]. destruct (f a); simpl; by rewrite IH. Qed.

Lemma cntb_take_S {A} (f : A -> bool) l i x : l !! i = Some x -> cntb f (take (S i) l) = cntb f (take i l) + (if f x then 1 else 0).
Proof. intros H. rewrite (take_S_r _ _ _ H), list_filter_app, app_length. simpl. by destruct (f x). Qed.
Lemma cntb_take_le {A} (f : A -> bool) l i : cntb f (take i l) <= cntb f l.
Proof. rewrite <- (take_drop i l) at 2. rewrite list_filter_app, app_length. lia. Qed.
Lemma cntb_take_mono {A} (f : A -> bool) l i j : i <= j -> cntb f (take i l) <= cntb f (take j l).
Proof. intros H. replace (take i l) with (take i (take j l)) by (rewrite take_take; f_equal; lia). apply cntb_take_le. Qed.
Lemma cntb_take_lt {A} (f : A -> bool) l i x : l !! i = Some x -> f x = true -> cntb f (take i l) < cntb f l.
Proof. intros H E. pose proof (cntb_take_le f l (S i)) as H1. rewrite (cntb_take_S _ _ _ _ H), E in H1. lia. Qed.
Lemma cntb_ext {A} (f g : A -> bool) l : (forall x, x ∈ l -> f x = g x) -> cntb f l = cntb g l.
Proof.
  induction l as [|a l IH]; intros H; [done|]. simpl.
  rewrite (H a) by left. destruct (g a); simpl; rewrite IH; auto; intros; apply H; by right.
Qed.
Lemma cntb_le {A} (f : A -> bool) l : cntb f l <= length l.
Proof. induction l as [|a l IH]; [done|]. simpl. destruct (f a); simpl; lia. Qed.
Lemma cntb_fmap {A B} (h : A -> B) (f : B -> bool) l : cntb f (h <$> l) = cntb (fun x => f (h x)) l.
Proof. induction l as [|a l IH]; [done|]. csimpl. destruct (f (h a)); simpl; by rewrite IH. Qed.
Lemma cntb_pos {A} (f : A -> bool) l : 0 < cntb f l <-> exists x, x ∈ l /\ f x = true.
Proof.
  split.
  - intros H. destruct (List.filter f l) as [|x k] eqn:E; [simpl in H; lia|].
    exists x. assert (In x (List.filter f l)) as Hi by (rewrite E; by left).
    apply filter_In in Hi as [? ?]. split; [|done]. by apply elem_of_list_In.
  - intros (x&Hx&E). apply elem_of_list_In in Hx. pose proof (proj2 (filter_In f x l) (conj Hx E)).
    destruct (List.filter f l); simpl in *; [done|lia].
Qed.

(** ** items_for *)
Lemma items_for_length {A} r rs (xs : list A) : length rs = length xs -> length (items_for r rs xs) = cntb (fun x => x =? r) rs.
Proof.
  unfold items_for. rewrite fmap_length. revert xs. induction rs as [|a rs IH]; intros [|x xs] H; simpl in *; [done..|].
  destruct (a =? r); simpl; rewrite IH; auto.
Qed.

Lemma items_for_lookup {A} r rs (xs : list A) k x : items_for r rs xs !! k = Some x ->
  exists i, rs !! i = Some r /\ xs !! i = Some x /\ cntb (fun y => y =? r) (take i rs) = k.
Proof.
  unfold items_for. revert xs k. induction rs as [|a rs IH]; intros [|y xs] k H; simpl in *; try (by destruct k).
  destruct (Nat.eqb_spec a r) as [->|Hne].
  - destruct k as [|k]; csimpl in *.
    + injection H as ->. by exists 0.
    + destruct (IH _ _ H) as (i&?&?&?). exists (S i). split; [done|]. split; [done|].
      cbn [take List.filter]. rewrite Nat.eqb_refl. simpl. lia.
  - destruct (IH _ _ H) as (i&?&?&?). exists (S i). split; [done|]. split; [done|].
    cbn [take List.filter]. destruct (Nat.eqb_spec a r); [done|]. simpl. lia.
Qed.

Lemma items_for_app {A} r rs1 rs2 (xs1 xs2 : list A) : length rs1 = length xs1 ->
  items_for r (rs1 ++ rs2) (xs1 ++ xs2) = items_for r rs1 xs1 ++ items_for r rs2 xs2.
Proof. intros H. unfold items_for. rewrite zip_with_app by done. by rewrite list_filter_app, fmap_app. Qed.

Lemma items_for_replicate {A} r n (xs : list A) : length xs = n -> items_for r (replicate n r) xs = xs.
Proof.
  unfold items_for. revert xs. induction n as [|n IH]; intros [|x xs] H; simpl in *; try done.
  rewrite Nat.eqb_refl. csimpl. f_equal. apply IH. lia.
Qed.
Lemma items_for_none {A} r rs (xs : list A) : r ∉ rs -> items_for r rs xs = [].
Proof.
  unfold items_for. revert xs. induction rs as [|a rs IH]; intros [|x xs] H; simpl in *; try done.
  apply not_elem_of_cons in H as [? ?]. destruct (Nat.eqb_spec a r); [congruence|]. by apply IH.
Qed.

(** ** What a sending plan has to satisfy *)
Record PlanOK (rs : list nat) (p : send_plan) : Prop := {
  po_len : length (sp_offs p) = S (length (sp_dests p));
  po_nodup : NoDup (sp_dests p);
  po_dest : forall d, d ∈ sp_dests p <-> d ∈ rs;
  po_cnt : forall i d lo hi, sp_dests p !! i = Some d -> sp_offs p !! i = Some lo -> sp_offs p !! (S i) = Some hi ->
    hi = lo + cntb (fun y => y =? d) rs;
  po_send : forall A (xs : list (option A)) order, length xs = length rs -> order ≡ₚ seq 0 (length rs) ->
    exists ex, permuted_exports p order xs = Some ex /\ forall d, d ∈ rs -> outgoing p ex d = Some (items_for d rs xs) }.

Lemma outgoing_at {A} p (ex : list (option A)) i d lo hi : NoDup (sp_dests p) -> sp_dests p !! i = Some d ->
  sp_offs p !! i = Some lo -> sp_offs p !! (S i) = Some hi -> outgoing p ex d = slice ex lo hi.
Proof.
  intros ND Hd Hlo Hhi. unfold outgoing.
  assert (List.filter (fun i => match sp_dests p !! i with Some d' => d' =? d | None => false end) (seq 0 (length (sp_dests p))) = [i]) as ->; [|simpl; by rewrite Hlo; simpl; rewrite Hhi].
  pose proof (lookup_lt_Some _ _ _ Hd) as Hi.
  replace (length (sp_dests p)) with (i + (1 + (length (sp_dests p) - S i))) by lia.
  rewrite !seq_app, !list_filter_app. simpl. rewrite Hd, Nat.eqb_refl.
  assert (forall l, (forall j, j ∈ l -> j <> i) -> List.filter (fun i => match sp_dests p !! i with Some d' => d' =? d | None => false end) l = []) as Hnil.
  { induction l as [|j l IH]; intros H; [done|]. simpl. destruct (sp_dests p !! j) as [d'|] eqn:E.
    - destruct (Nat.eqb_spec d' d) as [->|]; [|apply IH; intros; apply H; by right].
      destruct (H j); [left|]. by eapply NoDup_lookup.
    - apply IH. intros; apply H; by right. }
  rewrite !Hnil; [done| |]; intros j Hj; apply elem_of_seq in Hj; lia.
Qed.

(** ** The batch layout *)
Inductive Desc : nat -> list nat -> list nat -> list nat -> Prop :=
| Desc_nil prev : Desc prev [] [] []
| Desc_cons prev r n us os L : 0 < n -> r ∉ L -> Desc (prev + n) us os L ->
    Desc prev (r :: us) (prev + n :: os) (replicate n r ++ L).

Lemma Desc_dests prev us os L : Desc prev us os L -> length us = length os /\ NoDup us /\ forall d, d ∈ us <-> d ∈ L.
Proof.
  induction 1 as [|prev r n us os L Hn Hr HD (IH1&IH2&IH3)]; [split; [done|]; split; [constructor|done]|].
  simpl. split; [lia|]. split; [constructor; [by rewrite IH3|done]|].
  intros d. rewrite elem_of_cons, elem_of_app, IH3, elem_of_replicate. split; [intros [->|?]; [left; split; [done|lia]|by right]|intros [[-> _]|?]; auto].
Qed.

Lemma cntb_none d (L : list nat) : d ∉ L -> cntb (fun y => y =? d) L = 0.
Proof.
  intros H. destruct (Nat.eq_0_gt_0_cases (cntb (fun y => y =? d) L)) as [|Hp]; [done|].
  apply cntb_pos in Hp as (x&Hx&E). apply Nat.eqb_eq in E. congruence.
Qed.
Lemma cntb_replicate d n : cntb (fun y => y =? d) (replicate n d) = n.
Proof. induction n; simpl; [done|]. rewrite Nat.eqb_refl. simpl. lia. Qed.
Lemma cntb_replicate_ne d r n : d <> r -> cntb (fun y => y =? d) (replicate n r) = 0.
Proof. intros H. apply cntb_none. rewrite elem_of_replicate. intros [? _]. congruence. Qed.

Lemma Desc_at prev us os L : Desc prev us os L -> forall i d lo hi,
  us !! i = Some d -> (prev :: os) !! i = Some lo -> (prev :: os) !! (S i) = Some hi ->
  hi = lo + cntb (fun y => y =? d) L /\ prev <= lo /\
  exists L1 L2, L = L1 ++ replicate (hi - lo) d ++ L2 /\ length L1 = lo - prev /\ d ∉ L1 /\ d ∉ L2.
Proof.
  induction 1 as [|prev r n us os L Hn Hr HD IH]; intros i d lo hi Hd Hlo Hhi; [done|].
  rewrite list_filter_app, app_length.
  destruct i as [|i]; simpl in *.
  - injection Hd as <-. injection Hlo as <-. injection Hhi as <-.
    rewrite cntb_replicate, cntb_none by done. split; [lia|]. split; [lia|].
    exists [], L. replace (prev + n - prev) with n by lia. split; [done|]. split; [simpl; lia|].
    split; [by apply not_elem_of_nil|done].
  - destruct (IH i d lo hi) as (E&Hle&L1&L2&HL&Hlen&H1&H2); [done..|].
    assert (d <> r). { intros ->. apply Hr. apply (proj2 (proj2 (Desc_dests _ _ _ _ HD))). by eapply elem_of_list_lookup_2. }
    rewrite cntb_replicate_ne by done. split; [lia|]. split; [lia|].
    exists (replicate n r ++ L1), L2. rewrite HL at 1. split; [by rewrite <- app_assoc|].
    split; [rewrite app_length, replicate_length; lia|]. split; [|done].
    rewrite elem_of_app, elem_of_replicate. intros [[? _]|?]; congruence.
Qed.

Lemma Desc_plan us os L : Desc 0 us os L -> PlanOK L (SendPlan [] us (0 :: os)).
Proof.
  intros HD. destruct (Desc_dests _ _ _ _ HD) as (Hlen&ND&Hin).
  split; simpl.
  - lia.
  - done.
  - done.
  - intros i d lo hi Hd Hlo Hhi. destruct (Desc_at _ _ _ _ HD i d lo hi) as [? _]; done.
  - intros A xs order Hxs _. exists xs. split; [done|]. intros d Hd.
    apply Hin, elem_of_list_lookup in Hd as [i Hi].
    pose proof (lookup_lt_Some _ _ _ Hi).
    destruct (lookup_lt_is_Some_2 (0 :: os) i) as [lo Hlo]; [simpl; lia|].
    destruct (lookup_lt_is_Some_2 (0 :: os) (S i)) as [hi Hhi]; [simpl; lia|].
    rewrite (outgoing_at _ _ i d lo hi); try done.
    destruct (Desc_at _ _ _ _ HD i d lo hi) as (E&_&L1&L2&HL&Hl1&H1&H2); [done..|].
    assert (lo <= hi) by lia.
    assert (length xs = lo + ((hi - lo) + length L2)) as Hx. { rewrite Hxs, HL, !app_length, replicate_length. lia. }
    unfold slice. destruct (Nat.leb_spec lo hi); [|lia]. destruct (Nat.leb_spec hi (length xs)); [|lia]. simpl. f_equal.
    rewrite HL. rewrite <- (take_drop lo xs) at 2. rewrite items_for_app by (rewrite take_length; lia).
    rewrite items_for_none by done. simpl.
    rewrite <- (take_drop (hi - lo) (drop lo xs)) at 2.
    rewrite items_for_app by (rewrite take_length, drop_length, replicate_length; lia).
    rewrite items_for_replicate by (rewrite take_length, drop_length; lia).
    rewrite items_for_none by done. by rewrite app_nil_r.
Qed.

Lemma Grouped_cons r ranks : Grouped (r :: ranks) -> Grouped ranks.
Proof. intros H i j k a b Hij Hjk Ha Hb Hc. apply (H (S i) (S j) (S k) a b); simpl; auto; lia. Qed.

Lemma Grouped_head r r' ranks : Grouped (r :: r' :: ranks) -> r <> r' -> r ∉ r' :: ranks.
Proof.
  intros H Hne Hin. apply elem_of_list_lookup in Hin as [k Hk]. destruct k as [|k]; [simpl in Hk; congruence|].
  assert (r' = r); [|congruence]. apply (H 0 1 (S (S k)) r r'); simpl; auto; lia.
Qed.

Lemma per_item_cons {A} (x : A) xs n ns : per_item (x :: xs) (n :: ns) = replicate n x ++ per_item xs ns.
Proof. done. Qed.
Lemma per_item_sub {A} (x : A) xs ns : x ∈ per_item xs ns -> x ∈ xs.
Proof.
  revert ns. induction xs as [|y xs IH]; intros [|n ns] H; try (by apply elem_of_nil in H).
  rewrite per_item_cons in H. apply elem_of_app in H as [H|H]; [apply elem_of_replicate in H as [-> _]; left|right; by eapply IH].
Qed.

Lemma compact_desc ranks : forall r w ws prev m us os, Grouped (r :: ranks) -> length ws = length ranks ->
  drop_empty prev (compact_runs (r :: ranks) (run_offsets (prev + m) (w :: ws))) = (us, os) ->
  Desc prev us os (replicate m r ++ per_item (r :: ranks) (w :: ws)).
Proof.
  induction ranks as [|r' ranks IH]; intros r w ws prev m us os HG Hl HE.
  - destruct ws; [|done]. cbn [run_offsets compact_runs drop_empty] in HE.
    rewrite per_item_cons. unfold per_item. simpl. rewrite app_nil_r, <- replicate_add.
    destruct (Nat.ltb_spec 0 (prev + m + w - prev)).
    + injection HE as <- <-. rewrite <- (app_nil_r (replicate _ _)). replace (prev + m + w) with (prev + (m + w)) by lia.
      constructor; [lia|by apply not_elem_of_nil|constructor].
    + injection HE as <- <-. replace (m + w) with 0 by lia. constructor.
  - destruct ws as [|w' ws]; [done|].
    change (run_offsets (prev + m) (w :: w' :: ws)) with (prev + m + w :: run_offsets (prev + m + w) (w' :: ws)) in HE.
    change (compact_runs (r :: r' :: ranks) (prev + m + w :: run_offsets (prev + m + w) (w' :: ws))) with
      (if r' =? r then compact_runs (r' :: ranks) (run_offsets (prev + m + w) (w' :: ws))
       else (r, prev + m + w) :: compact_runs (r' :: ranks) (run_offsets (prev + m + w) (w' :: ws))) in HE.
    rewrite per_item_cons, app_assoc, <- replicate_add.
    destruct (Nat.eqb_spec r' r) as [->|Hne].
    + replace (prev + m + w) with (prev + (m + w)) in HE by lia.
      apply (IH r w' ws prev (m + w)); [by eapply Grouped_cons|simpl in *; lia|done].
    + cbn [drop_empty] in HE.
      destruct (drop_empty (prev + m + w) _) as [us' os'] eqn:E'.
      replace (prev + m + w) with (prev + m + w + 0) in E' at 2 by lia.
      apply (IH r' w' ws (prev + m + w) 0) in E'; [|by eapply Grouped_cons|simpl in *; lia].
      simpl in E'. destruct (Nat.ltb_spec 0 (prev + m + w - prev)).
      * injection HE as <- <-. replace (prev + m + w) with (prev + (m + w)) in * by lia.
        constructor; [lia| |done]. intros Hin. apply per_item_sub in Hin. by apply (Grouped_head r r' ranks HG).
      * injection HE as <- <-. replace (m + w) with 0 by lia. simpl. by replace (prev + m + w) with prev in E' by lia.
Qed.

Lemma per_item_length {A} (xs : list A) ns : length ns = length xs -> length (per_item xs ns) = sum_list ns.
Proof.
  revert ns. induction xs as [|x xs IH]; intros [|n ns] H; simpl in *; try done.
  rewrite per_item_cons, app_length, replicate_length, IH; auto; lia.
Qed.
Lemma run_offsets_last base ws : last (base :: run_offsets base ws) = Some (base + sum_list ws).
Proof.
  revert base. induction ws as [|w ws IH]; intros base; simpl; [f_equal; lia|].
  change (last (base + w :: run_offsets (base + w) ws) = Some (base + (w + sum_list ws))). rewrite IH. f_equal. lia.
Qed.
Lemma run_offsets_length base ws : length (run_offsets base ws) = length ws.
Proof. revert base. induction ws; intros; simpl; auto. Qed.

Lemma batched_plan ranks sizes : Grouped ranks -> length sizes = length ranks ->
  exists p, createFromSends_batched ranks (0 :: run_offsets 0 sizes) = Some p /\ PlanOK (per_item ranks sizes) p.
Proof.
  intros HG Hl. unfold createFromSends_batched. simpl. rewrite run_offsets_length, Hl, Nat.eqb_refl.
  change (match run_offsets 0 sizes with [] => Some 0 | _ :: _ => last (run_offsets 0 sizes) end) with (last (0 :: run_offsets 0 sizes)).
  rewrite run_offsets_last. simpl.
  destruct ranks as [|r ranks].
  { eexists. split; [done|]. apply (Desc_plan [] [] []). constructor. }
  destruct (Nat.eqb_spec (sum_list sizes) 0) as [E0|Hne].
  { eexists. split; [done|]. assert (per_item (r :: ranks) sizes = []) as ->. { apply nil_length_inv. rewrite per_item_length; auto. }
    apply (Desc_plan [] [] []). constructor. }
  destruct sizes as [|w ws]; [done|].
  destruct (drop_empty 0 (compact_runs (r :: ranks) (run_offsets 0 (w :: ws)))) as [us os] eqn:E.
  eexists. split; [done|]. apply Desc_plan.
  apply (compact_desc ranks r w ws 0 0) in E; auto.
Qed.

(** ** The sorting layout *)
Lemma max_reduce_spec dup : match max_reduce dup with
  | None => forall d, d ∈ dup -> d = None
  | Some m => Some m ∈ dup /\ forall x, Some x ∈ dup -> x <= m
  end.
Proof.
  induction dup as [|a dup IH]; simpl; [intros d H; by apply elem_of_nil in H|].
  destruct a as [x|]; destruct (max_reduce dup) as [m|]; simpl.
  - destruct IH as [H1 H2]. split.
    + destruct (Nat.max_spec x m) as [[_ ->]|[_ ->]]; [by right|left].
    + intros y Hy. apply elem_of_cons in Hy as [Hy|Hy]; [injection Hy as ->; lia|]. pose proof (H2 y Hy). lia.
  - split; [left|]. intros y Hy. apply elem_of_cons in Hy as [Hy|Hy]; [injection Hy as ->; lia|]. by apply IH in Hy.
  - destruct IH as [H1 H2]. split; [by right|]. intros y Hy. apply elem_of_cons in Hy as [Hy|Hy]; [done|by apply H2].
  - intros d Hd. apply elem_of_cons in Hd as [Hd|Hd]; [done|by apply IH].
Qed.

Notation is m := (fun d => match d with Some x => x =? m | None => false end).

Lemma place_largest_spec m off dup : forall upd perm, length perm = length dup ->
  exists dup' perm', place_largest m off upd dup perm = (dup', perm', upd + cntb (is m) dup) /\
    length perm' = length dup /\
    dup' = (fun d => if is m d then None else d) <$> dup /\
    forall i d, dup !! i = Some d -> perm' !! i = if is m d then Some (Some (upd + cntb (is m) (take i dup) + off)) else perm !! i.
Proof.
  induction dup as [|d dup IH]; intros upd perm Hl; destruct perm as [|p perm]; simpl in Hl; try done.
  { exists [], []. simpl. split; [f_equal; lia|]. split; [done|]. split; [done|]. intros i d H; done. }
  cbn [place_largest]. destruct (decide (d = Some m)) as [->|Hne].
  - destruct (IH (S upd) perm) as (dup'&perm'&E&L&D&P); [lia|]. rewrite E.
    exists (None :: dup'), (Some (upd + off) :: perm'). csimpl. rewrite Nat.eqb_refl. simpl.
    split; [f_equal; lia|]. split; [lia|]. split; [by rewrite D|].
    intros [|i] d Hd; simpl in *.
    + injection Hd as <-. rewrite Nat.eqb_refl. do 2 f_equal. lia.
    + rewrite (P i d Hd). rewrite Nat.eqb_refl. simpl. destruct (is m d); [|done]. do 2 f_equal. lia.
  - destruct (IH upd perm) as (dup'&perm'&E&L&D&P); [lia|]. rewrite E.
    assert (is m d = false) as Ed. { destruct d as [x|]; [|done]. apply Nat.eqb_neq. congruence. }
    exists (d :: dup'), (p :: perm'). csimpl. rewrite Ed.
    split; [done|]. split; [lia|]. split; [by rewrite D|].
    intros [|i] d' Hd; simpl in *.
    + injection Hd as <-. by rewrite Ed.
    + rewrite (P i d' Hd), Ed. done.
Qed.

Section Sort.
Variable rs : list nat.
Notation gt d := (cntb (fun x => d <? x) rs).
Notation eqs d := (cntb (fun x => x =? d) rs).
Definition pos (i d : nat) : nat := gt d + cntb (fun x => x =? d) (take i rs).

Definition mask (m : nat) : list (option nat) := (fun r => if r <? m then Some r else None) <$> rs.

Record LInv (m : nat) (off : nat) (perm : list (option nat)) (uniq offs : list nat) : Prop := {
  li_off : off = cntb (fun x => m <=? x) rs;
  li_len : length perm = length rs;
  li_perm : forall i d, rs !! i = Some d -> m <= d -> perm !! i = Some (Some (pos i d));
  li_offs : length offs = S (length uniq);
  li_last : last offs = Some off;
  li_at : forall i d, uniq !! i = Some d -> offs !! i = Some (gt d) /\ offs !! (S i) = Some (gt d + eqs d);
  li_uniq : forall d, d ∈ uniq <-> d ∈ rs /\ m <= d;
  li_nodup : NoDup uniq }.

Lemma count_ge_split m m' : m' < m -> (forall x, x ∈ rs -> x < m -> x <= m') ->
  cntb (fun x => m <=? x) rs = gt m'.
Proof.
  intros H1 H2. apply cntb_ext. intros x Hx.
  destruct (Nat.leb_spec m x), (Nat.ltb_spec m' x); auto; try lia. pose proof (H2 x Hx). lia.
Qed.

Lemma count_ge_next (l : list nat) m : cntb (fun x => m <=? x) l = cntb (fun x => m <? x) l + cntb (fun x => x =? m) l.
Proof.
  induction l as [|x l IH]; [done|]. simpl.
  destruct (Nat.leb_spec m x), (Nat.ltb_spec m x), (Nat.eqb_spec x m); simpl; try lia.
Qed.

Lemma last_lookup_eq {A} (l : list A) x n : last l = Some x -> length l = S n -> l !! n = Some x.
Proof. intros H L. rewrite last_lookup, L in H. done. Qed.

Lemma layout_loop_ok fuel : forall m off perm uniq offs,
  LInv m off perm uniq offs -> cntb (fun x => x <? m) rs < fuel ->
  exists p, layout_loop fuel off (mask m) perm uniq offs = Some p /\
    LInv 0 (length rs) (sp_perm p) (sp_dests p) (sp_offs p).
Proof.
  induction fuel as [|fuel IH]; intros m off perm uniq offs HI Hf; [lia|].
  cbn [layout_loop]. pose proof (max_reduce_spec (mask m)) as HM.
  destruct (max_reduce (mask m)) as [m'|].
  - destruct HM as [Hin Hmax].
    apply elem_of_list_fmap in Hin as (r&Hr&Hrin). destruct (Nat.ltb_spec r m) as [Hlt|]; [|done]. injection Hr as ->.
    assert (forall x, x ∈ rs -> x < m -> x <= r) as Hmx.
    { intros x Hx Hxm. apply Hmax. apply elem_of_list_fmap. exists x. split; [|done]. destruct (Nat.ltb_spec x m); [done|lia]. }
    destruct (place_largest_spec r off (mask m) 0 perm) as (dup'&perm'&E&L&D&P).
    { unfold mask. rewrite fmap_length. apply HI. }
    rewrite E.
    assert (forall l : list nat, (forall x, x ∈ l -> x ∈ rs) -> cntb (is r) ((fun r => if r <? m then Some r else None) <$> l) = cntb (fun x => x =? r) l) as HC.
    { intros l Hl. rewrite cntb_fmap. apply cntb_ext. intros x Hx.
      destruct (Nat.ltb_spec x m); [done|]. destruct (Nat.eqb_spec x r); [lia|done]. }
    assert (dup' = mask r) as ->.
    { rewrite D. unfold mask. rewrite <- list_fmap_compose. apply list_fmap_ext. intros i x Hx. simpl.
      apply elem_of_list_lookup_2 in Hx.
      destruct (Nat.ltb_spec x m) as [Hxm|]; [|destruct (Nat.ltb_spec x r); [lia|done]].
      pose proof (Hmx x Hx Hxm). destruct (Nat.eqb_spec x r), (Nat.ltb_spec x r); try done; lia. }
    assert (off = gt r) as Eoff. { rewrite (li_off _ _ _ _ _ HI). by apply count_ge_split. }
    assert (off + (0 + cntb (is r) (mask m)) = cntb (fun x => r <=? x) rs) as Enew.
    { unfold mask. rewrite HC by done. rewrite count_ge_next. lia. }
    apply IH.
    + split.
      * done.
      * rewrite L. unfold mask. by rewrite fmap_length.
      * intros i d Hd Hrd.
        assert (mask m !! i = Some (if d <? m then Some d else None)) as Hmi by (unfold mask; by rewrite list_lookup_fmap, Hd).
        rewrite (P i _ Hmi).
        destruct (Nat.ltb_spec d m) as [Hdm|Hdm].
        -- assert (d = r) as -> by (pose proof (Hmx d (elem_of_list_lookup_2 _ _ _ Hd) Hdm); lia).
           rewrite Nat.eqb_refl. unfold mask. rewrite <- fmap_take, HC.
           ++ do 2 f_equal. unfold pos. lia.
           ++ intros x Hx. by eapply elem_of_take in Hx as (?&?&?); eapply elem_of_list_lookup_2.
        -- by apply HI.
      * rewrite !app_length. simpl. rewrite (li_offs _ _ _ _ _ HI). lia.
      * by rewrite last_snoc.
      * intros i d Hd. pose proof (li_offs _ _ _ _ _ HI) as Hlo.
        destruct (decide (i < length uniq)) as [Hi|Hi].
        -- rewrite lookup_app_l in Hd by done. destruct (li_at _ _ _ _ _ HI i d Hd) as [H1 H2].
           rewrite !lookup_app_l by lia. done.
        -- pose proof (lookup_lt_Some _ _ _ Hd) as Hl. rewrite app_length in Hl. simpl in Hl.
           assert (i = length uniq) as -> by lia. rewrite lookup_app_r in Hd by lia. rewrite Nat.sub_diag in Hd. injection Hd as <-.
           split.
           ++ rewrite lookup_app_l by lia. rewrite <- Eoff. by apply last_lookup_eq; [apply HI|].
           ++ rewrite lookup_app_r by lia. rewrite Hlo, Nat.sub_diag. simpl. f_equal. unfold mask. rewrite HC by done. lia.
      * intros d. rewrite elem_of_app, elem_of_list_singleton, (li_uniq _ _ _ _ _ HI). split.
        -- intros [[? ?]| ->]; [split; [done|lia]|done].
        -- intros [Hd Hrd]. destruct (decide (m <= d)); [by left|]. right. pose proof (Hmx d Hd). lia.
      * apply NoDup_app. split; [apply HI|]. split; [|apply NoDup_singleton].
        intros x Hx. rewrite elem_of_list_singleton. intros ->. apply (li_uniq _ _ _ _ _ HI) in Hx as [_ ?]. lia.
    + assert (cntb (fun x => x <? r) rs < cntb (fun x => x <? m) rs); [|lia].
      clear -Hlt Hrin. induction rs as [|x l IHl]; [by apply elem_of_nil in Hrin|]. simpl.
      assert (forall l : list nat, cntb (fun x => x <? r) l <= cntb (fun x => x <? m) l) as Hle.
      { induction l0 as [|y l0 IH0]; [done|]. simpl. destruct (Nat.ltb_spec y r), (Nat.ltb_spec y m); simpl; lia. }
      apply elem_of_cons in Hrin as [<-|Hin].
      * destruct (Nat.ltb_spec r r), (Nat.ltb_spec r m); simpl; pose proof (Hle l); lia.
      * specialize (IHl Hin). destruct (Nat.ltb_spec x r), (Nat.ltb_spec x m); simpl; lia.
  - eexists. split; [done|]. simpl.
    assert (forall x, x ∈ rs -> m <= x) as Hall.
    { intros x Hx. destruct (decide (m <= x)); [done|]. exfalso.
      assert (Some x = (None : option nat)); [|done]. apply HM. apply elem_of_list_fmap. exists x. split; [|done].
      destruct (Nat.ltb_spec x m); [done|lia]. }
    assert (off = length rs) as <-.
    { rewrite (li_off _ _ _ _ _ HI). clear -Hall. induction rs as [|x l IHl]; [done|]. simpl.
      destruct (Nat.leb_spec m x) as [|Hlt]; [simpl; rewrite IHl; auto; intros; apply Hall; by right|].
      pose proof (Hall x). assert (x ∈ x :: l) by left. lia. }
    destruct HI as [H1 H2 H3 H4 H5 H6 H7 H8]. split; auto.
    + rewrite H1. apply cntb_ext. intros x Hx. destruct (Nat.leb_spec m x), (Nat.leb_spec 0 x); auto; pose proof (Hall x Hx); lia.
    + intros i d Hd _. apply H3; [done|]. apply Hall. by eapply elem_of_list_lookup_2.
    + intros d. rewrite H7. split; [intros [? ?]; split; [done|lia]|intros [? _]; split; auto].
Qed.

Lemma pos_lt i d : rs !! i = Some d -> pos i d < gt d + eqs d.
Proof. intros H. unfold pos. pose proof (cntb_take_lt (fun x => x =? d) rs i d H (Nat.eqb_refl d)). lia. Qed.

Lemma gt_eq_le d d' : d < d' -> gt d' + eqs d' <= gt d.
Proof.
  intros H. clear -H. induction rs as [|x l IH]; [done|]. simpl.
  destruct (Nat.ltb_spec d' x), (Nat.eqb_spec x d'), (Nat.ltb_spec d x); simpl; lia.
Qed.
Lemma gt_eq_total d : gt d + eqs d <= length rs.
Proof. clear. induction rs as [|x l IH]; [done|]. simpl. destruct (Nat.ltb_spec d x), (Nat.eqb_spec x d); simpl; lia. Qed.

Lemma pos_inj i j d d' : rs !! i = Some d -> rs !! j = Some d' -> pos i d = pos j d' -> i = j.
Proof.
  intros Hi Hj E. pose proof (pos_lt i d Hi). pose proof (pos_lt j d' Hj).
  destruct (Nat.lt_trichotomy d d') as [Hl|[->|Hl]].
  - pose proof (gt_eq_le d d' Hl). unfold pos in *. lia.
  - unfold pos in E. destruct (Nat.lt_trichotomy i j) as [Hl|[->|Hl]]; [|done|].
    + pose proof (cntb_take_mono (fun x => x =? d') rs (S i) j Hl) as Hm. rewrite (cntb_take_S _ _ _ _ Hi), Nat.eqb_refl in Hm. lia.
    + pose proof (cntb_take_mono (fun x => x =? d') rs (S j) i Hl) as Hm. rewrite (cntb_take_S _ _ _ _ Hj), Nat.eqb_refl in Hm. lia.
  - pose proof (gt_eq_le d' d Hl). unfold pos in *. lia.
Qed.

Lemma LInv_plan p : rs <> [] -> LInv 0 (length rs) (sp_perm p) (sp_dests p) (sp_offs p) -> PlanOK rs p.
Proof.
  intros Hne HI. split.
  - apply HI.
  - apply HI.
  - intros d. rewrite (li_uniq _ _ _ _ _ HI). split; [by intros [? _]|]. intros; split; [done|lia].
  - intros i d lo hi Hd Hlo Hhi. destruct (li_at _ _ _ _ _ HI i d Hd) as [H1 H2]. congruence.
  - intros A xs order Hxs Ho. unfold permuted_exports.
    pose proof (li_len _ _ _ _ _ HI) as Hpl.
    destruct (sp_perm p) as [|p0 perm0] eqn:Ep. { destruct rs; done. }
    rewrite <- Ep in *. rewrite Hpl, <- Hxs, Nat.eqb_refl.
    destruct (par_writes_correct (fun i => mjoin (sp_perm p !! i)) (fun i => xs !! i) order (replicate (length xs) None)) as (ex&E&Lx&W&_).
    + rewrite Ho. apply NoDup_seq.
    + intros i Hi. rewrite Ho in Hi. apply elem_of_seq in Hi as [_ Hi]. simpl in Hi.
      destruct (lookup_lt_is_Some_2 rs i Hi) as [d Hd].
      destruct (lookup_lt_is_Some_2 xs i) as [v Hv]; [lia|].
      exists (pos i d), v. rewrite (li_perm _ _ _ _ _ HI i d Hd) by lia. split; [done|]. split; [done|].
      rewrite replicate_length. pose proof (pos_lt i d Hd). pose proof (gt_eq_total d). lia.
    + intros i j q Hi Hj. rewrite Ho in Hi, Hj. apply elem_of_seq in Hi as [_ Hi]. apply elem_of_seq in Hj as [_ Hj]. simpl in Hi, Hj.
      destruct (lookup_lt_is_Some_2 rs i Hi) as [d Hd]. destruct (lookup_lt_is_Some_2 rs j Hj) as [d' Hd'].
      rewrite (li_perm _ _ _ _ _ HI i d Hd), (li_perm _ _ _ _ _ HI j d' Hd') by lia. simpl.
      intros [= <-] [= E]. by apply (pos_inj i j d d').
    + exists ex. split; [done|]. intros d Hd. rewrite replicate_length in Lx.
      assert (d ∈ sp_dests p) as Hdd. { apply (li_uniq _ _ _ _ _ HI). split; [done|lia]. }
      apply elem_of_list_lookup in Hdd as [k Hk]. destruct (li_at _ _ _ _ _ HI k d Hk) as [H1 H2].
      rewrite (outgoing_at p ex k d (gt d) (gt d + eqs d)); try done; [|apply HI].
      pose proof (gt_eq_total d). unfold slice.
      destruct (Nat.leb_spec (gt d) (gt d + eqs d)); [|lia]. destruct (Nat.leb_spec (gt d + eqs d) (length ex)); [|lia]. simpl. f_equal.
      apply list_eq_same_length with (n := eqs d).
      * by rewrite items_for_length.
      * rewrite take_length, drop_length. lia.
      * intros q x y Hq Hx Hy.
        apply items_for_lookup in Hy as (i&Hi&Hxi&Hci).
        rewrite lookup_take, lookup_drop in Hx by lia.
        assert (ex !! pos i d = xs !! i) as Hw.
        { apply W; [rewrite Ho; apply elem_of_seq; apply lookup_lt_Some in Hi; lia|].
          by rewrite (li_perm _ _ _ _ _ HI i d Hi) by lia. }
        unfold pos in Hw. rewrite Hci in Hw. congruence.
Qed.
End Sort.

Lemma min_max_same r l : min_of r l = max_of r l -> forall x, x ∈ r :: l -> x = min_of r l.
Proof.
  intros E.
  assert (forall x, x ∈ r :: l -> min_of r l <= x <= max_of r l) as H.
  { clear E. induction l as [|a l IH]; intros x Hx; simpl.
    - apply elem_of_list_singleton in Hx as ->. lia.
    - apply elem_of_cons in Hx as [->|Hx]; [pose proof (IH r ltac:(left)); lia|].
      apply elem_of_cons in Hx as [->|Hx]; [lia|]. pose proof (IH x ltac:(by right)). lia. }
  intros x Hx. pose proof (H x Hx). lia.
Qed.

Lemma createFromSends_plan rs : exists p, createFromSends rs = Some p /\ PlanOK rs p.
Proof.
  destruct rs as [|r l]; [eexists; split; [done|]; apply (Desc_plan [] [] []); constructor|].
  unfold createFromSends. destruct (Nat.eqb_spec (min_of r l) (max_of r l)) as [E|Hne].
  - eexists. split; [done|]. pose proof (min_max_same r l E) as H.
    assert (r :: l = replicate (length (r :: l)) (min_of r l)) as ->.
    { symmetry. apply replicate_as_Forall. split; [done|]. apply Forall_forall. intros x Hx. symmetry. by apply H. }
    rewrite replicate_length. rewrite <- (app_nil_r (replicate _ _)). apply (Desc_plan _ [length (r :: l)]).
    apply (Desc_cons 0); [simpl; lia|apply not_elem_of_nil|constructor].
  - unfold sortAndDetermineBufferLayout.
    set (rs := r :: l) in *.
    destruct (layout_loop_ok rs (S (length rs)) (S (max_of 0 rs)) 0 (replicate (length rs) None) [] [0]) as (p&E&HL).
    + assert (forall x, x ∈ rs -> x <= max_of 0 rs) as HM.
      { clear. generalize rs. clear. induction rs as [|a rs IH]; intros x Hx; [by apply elem_of_nil in Hx|]. simpl.
        apply elem_of_cons in Hx as [->|Hx]; [lia|]. pose proof (IH x Hx). unfold max_of in *. lia. }
      split; try done.
      * destruct (Nat.eq_0_gt_0_cases (cntb (fun x => S (max_of 0 rs) <=? x) rs)) as [->|Hp]; [done|].
        apply cntb_pos in Hp as (x&Hx&Ex). apply Nat.leb_le in Ex. pose proof (HM x Hx). lia.
      * by rewrite replicate_length.
      * intros i d Hd Hm. pose proof (HM d (elem_of_list_lookup_2 _ _ _ Hd)). lia.
      * intros d. split; [intros Hd; by apply elem_of_nil in Hd|]. intros [Hd Hm]. pose proof (HM d Hd). lia.
      * constructor.
    + apply Nat.lt_succ_r. apply cntb_le.
    + assert (mask rs (S (max_of 0 rs)) = Some <$> rs) as EM.
      { unfold mask. apply list_fmap_ext. intros i x Hx. 
        assert (forall x, x ∈ rs -> x <= max_of 0 rs) as HM.
        { clear. generalize rs. clear. induction rs as [|a rs IH]; intros x Hx; [by apply elem_of_nil in Hx|]. simpl.
          apply elem_of_cons in Hx as [->|Hx]; [lia|]. pose proof (IH x Hx). unfold max_of in *. lia. }
        pose proof (HM x (elem_of_list_lookup_2 _ _ _ Hx)). destruct (Nat.ltb_spec x (S (max_of 0 rs))); [done|lia]. }
      rewrite EM in E. exists p. split; [done|]. by apply LInv_plan.
Qed.

(** ** The receiving side *)
Lemma dense_counts_ok (c : nat -> nat) dests : forall offs acc, NoDup dests -> length offs = S (length dests) ->
  (forall i d lo hi, dests !! i = Some d -> offs !! i = Some lo -> offs !! (S i) = Some hi -> hi = lo + c d) ->
  (forall d, d ∈ dests -> d < length acc) ->
  exists acc', dense_counts dests offs acc = Some acc' /\ length acc' = length acc /\
    forall d, acc' !! d = if decide (d ∈ dests) then Some (c d) else acc !! d.
Proof.
  induction dests as [|d dests IH]; intros offs acc ND Hl Hc Hb.
  { exists acc. split; [by destruct offs|]. split; [done|]. intros d. destruct (decide _) as [Hd|]; [by apply elem_of_nil in Hd|done]. }
  destruct offs as [|o [|o' offs]]; try done.
  apply NoDup_cons in ND as [Hd ND].
  cbn [dense_counts]. rewrite wr_Some by (apply Hb; left). cbn [mbind option_bind].
  pose proof (Hc 0 d o o' eq_refl eq_refl eq_refl) as ->.
  destruct (IH (o + c d :: offs) (<[d:=o + c d - o]> acc)) as (acc'&E&L&G).
  - done.
  - simpl in *. lia.
  - intros i d' lo hi H1 H2 H3. apply (Hc (S i)); done.
  - intros d' Hd'. rewrite insert_length. apply Hb. by right.
  - exists acc'. split; [done|]. rewrite insert_length in L. split; [done|].
    intros d'. rewrite G. destruct (decide (d' ∈ dests)) as [Hin|Hin].
    + rewrite decide_True by (by right). done.
    + destruct (decide (d' = d)) as [->|Hne].
      * rewrite decide_True by left. rewrite list_lookup_insert by (apply Hb; left). f_equal. lia.
      * rewrite decide_False by (rewrite elem_of_cons; tauto). by rewrite list_lookup_insert_ne.
Qed.

Lemma edges_to_ok (c : nat -> nat) s r dests : forall offs, NoDup dests -> length offs = S (length dests) ->
  (forall i d lo hi, dests !! i = Some d -> offs !! i = Some lo -> offs !! (S i) = Some hi -> hi = lo + c d) ->
  edges_to s r dests offs = if decide (r ∈ dests) then [(s, c r)] else [].
Proof.
  induction dests as [|d dests IH]; intros offs ND Hl Hc.
  { destruct (decide _) as [Hd|]; [by apply elem_of_nil in Hd|done]. }
  destruct offs as [|o [|o' offs]]; try done.
  apply NoDup_cons in ND as [Hd ND].
  cbn [edges_to]. pose proof (Hc 0 d o o' eq_refl eq_refl eq_refl) as ->.
  rewrite IH; [|done|simpl in *; lia|intros i d' lo hi H1 H2 H3; by apply (Hc (S i))].
  destruct (Nat.eqb_spec d r) as [->|Hne].
  - rewrite decide_False by done. rewrite decide_True by left. simpl. do 2 f_equal. lia.
  - simpl. destruct (decide (r ∈ dests)).
    + by rewrite decide_True by (by right).
    + rewrite decide_False; [done|]. rewrite elem_of_cons. intros [?|?]; congruence.
Qed.

(** Sources with a positive count. *)
Fixpoint pos_edges (i : nat) (counts : list nat) : list (nat * nat) :=
  match counts with
  | [] => []
  | c :: counts => if 0 <? c then (i, c) :: pos_edges (S i) counts else pos_edges (S i) counts
  end.

Lemma keep_positive_eq counts : forall i base,
  keep_positive i base counts = ((pos_edges i counts).*1, run_offsets base (pos_edges i counts).*2).
Proof.
  induction counts as [|c counts IH]; intros i base; [done|]. cbn [keep_positive pos_edges].
  destruct (Nat.ltb_spec 0 c); [|apply IH]. rewrite IH. done.
Qed.

Lemma pos_edges_elem counts : forall i s c, (s, c) ∈ pos_edges i counts <-> i <= s /\ counts !! (s - i) = Some c /\ 0 < c.
Proof.
  induction counts as [|x counts IH]; intros i s c; cbn [pos_edges].
  { split; [intros H; by apply elem_of_nil in H|]. intros (_&H&_). done. }
  assert ((s, c) ∈ pos_edges (S i) counts <-> i < s /\ (x :: counts) !! (s - i) = Some c /\ 0 < c) as H.
  { rewrite IH. split; intros (H1&H2&H3); (split; [lia|]; split; [|done]).
    - replace (s - i) with (S (s - S i)) by lia. done.
    - replace (s - i) with (S (s - S i)) in H2 by lia. done. }
  destruct (Nat.ltb_spec 0 x).
  - rewrite elem_of_cons, H. split.
    + intros [[= -> ->]|(?&?&?)]; [rewrite Nat.sub_diag; auto|]. split; [lia|]. by split.
    + intros (H1&H2&H3). destruct (decide (s = i)) as [->|]; [|right; split; [lia|]; by split].
      rewrite Nat.sub_diag in H2. injection H2 as ->. by left.
  - rewrite H. split; [intros (?&?&?); split; [lia|]; by split|].
    intros (H1&H2&H3). destruct (decide (s = i)) as [->|]; [|split; [lia|]; by split].
    rewrite Nat.sub_diag in H2. injection H2 as ->. lia.
Qed.

Notation src_le := (fun a b : nat * nat => a.1 <= b.1).
Lemma pos_edges_sorted counts : forall i, StronglySorted src_le (pos_edges i counts).
Proof.
  induction counts as [|x counts IH]; intros i; cbn [pos_edges]; [constructor|].
  destruct (0 <? x); [|apply IH]. constructor; [apply IH|]. apply Forall_forall. intros [s c] Hin.
  apply pos_edges_elem in Hin as [? _]. simpl. lia.
Qed.

Lemma sorted_perm_eq {A} (R : A -> A -> Prop) (l1 l2 : list A) : (forall x y, x ∈ l1 -> y ∈ l1 -> R x y -> R y x -> x = y) ->
  StronglySorted R l1 -> StronglySorted R l2 -> l1 ≡ₚ l2 -> l1 = l2.
Proof.
  revert l2. induction l1 as [|x l1 IH]; intros l2 Ha H1 H2 HP; [by apply Permutation_nil_l in HP|].
  destruct l2 as [|y l2]; [by apply Permutation_nil_r in HP|].
  apply StronglySorted_inv in H1 as [H1 F1]. apply StronglySorted_inv in H2 as [H2 F2].
  rewrite Forall_forall in F1, F2.
  assert (x = y) as <-.
  { assert (x ∈ y :: l2) as Hx by (rewrite <- HP; left). assert (y ∈ x :: l1) as Hy by (rewrite HP; left).
    apply elem_of_cons in Hx as [->|Hx]; [done|]. pose proof Hy as Hy'. apply elem_of_cons in Hy as [->|Hy]; [done|].
    apply Ha; [left|done|by apply F1|by apply F2]. }
  f_equal. apply IH; [|done|done|by eapply Permutation_cons_inv]. intros u v Hu Hv. apply Ha; by right.
Qed.

Lemma sorted_edges_unique counts i sorted : sorted ≡ₚ pos_edges i counts -> StronglySorted src_le sorted -> sorted = pos_edges i counts.
Proof.
  intros HP HS. apply (sorted_perm_eq src_le); [|done|apply pos_edges_sorted|done].
  intros [s c] [s' c'] H1 H2 Hle Hge. simpl in *. rewrite HP in H1, H2.
  apply pos_edges_elem in H1 as (_&E&_). apply pos_edges_elem in H2 as (_&E'&_).
  assert (s' = s) as -> by lia. congruence.
Qed.

Lemma in_edges_ok rss plans r : Forall2 PlanOK rss plans ->
  in_edges plans r = pos_edges 0 ((fun rs => cntb (fun y => y =? r) rs) <$> rss).
Proof.
  intros HF. unfold in_edges.
  assert (forall i, concat (imap (fun s p => edges_to (i + s) r (sp_dests p) (sp_offs p)) plans) =
    pos_edges i ((fun rs => cntb (fun y => y =? r) rs) <$> rss)) as H.
  { induction HF as [|rs p rss plans HP HF IH]; intros i; [done|].
    csimpl. rewrite (edges_to_ok (fun d => cntb (fun y => y =? d) rs)); [|apply HP..].
    rewrite Nat.add_0_r.
    replace (imap _ plans) with (imap (fun s p => edges_to (S i + s) r (sp_dests p) (sp_offs p)) plans).
    2: { apply imap_ext. intros j x Hx. simpl. f_equal. lia. }
    rewrite IH.
    destruct (decide (r ∈ sp_dests p)) as [Hin|Hin]; rewrite (po_dest _ _ HP) in Hin.
    - destruct (Nat.ltb_spec 0 (cntb (fun y => y =? r) rs)) as [|H0]; [done|].
      exfalso. enough (0 < cntb (fun y => y =? r) rs) by lia. apply cntb_pos. exists r. split; [done|apply Nat.eqb_refl].
    - rewrite cntb_none by done. done. }
  apply (H 0).
Qed.

Lemma mapM_Forall2 {A B} (f : A -> option B) l k : Forall2 (fun x y => f x = Some y) l k -> mapM f l = Some k.
Proof. intros H. by apply mapM_Some. Qed.

Lemma receive_dense_ok rss plans r : Forall2 PlanOK rss plans ->
  (forall s rs d, rss !! s = Some rs -> d ∈ rs -> d < length plans) -> r < length plans ->
  receive_dense plans r = Some (receive_graph (pos_edges 0 ((fun rs => cntb (fun y => y =? r) rs) <$> rss))).
Proof.
  intros HF Hb Hr. unfold receive_dense.
  assert (exists mat, mapM (fun p => dense_counts (sp_dests p) (sp_offs p) (replicate (length plans) 0)) plans = Some mat /\
    Forall2 (fun rs row => row !! r = Some (cntb (fun y => y =? r) rs)) rss mat) as (mat&->&HM).
  { revert Hb Hr. generalize (length plans) as P. intros P Hb Hr.
    induction HF as [|rs p rss plans HP HF IH]; [exists []; split; [done|constructor]|].
    destruct IH as (mat&E&HM). { intros s rs' d Hs. apply (Hb (S s) rs' d Hs). }
    destruct (dense_counts_ok (fun d => cntb (fun y => y =? d) rs) (sp_dests p) (sp_offs p) (replicate P 0)) as (row&E1&L1&G1); [apply HP..| |].
    { intros d Hd. rewrite replicate_length. apply (Hb 0 rs d eq_refl). by apply (po_dest _ _ HP). }
    exists (row :: mat). cbn [mapM]. rewrite E1. cbn [mbind option_bind]. rewrite E. split; [done|].
    constructor; [|done]. rewrite G1. destruct (decide (r ∈ sp_dests p)) as [|Hin]; [done|].
    rewrite (po_dest _ _ HP) in Hin. rewrite cntb_none by done. by rewrite lookup_replicate_2. }
  cbn [mbind option_bind]. unfold alltoall.
  assert (mapM (fun row : list nat => row !! r) mat = Some ((fun rs => cntb (fun y => y =? r) rs) <$> rss)) as ->.
  { apply mapM_Some. clear -HM. induction HM; csimpl; constructor; auto. }
  cbn [mbind option_bind]. rewrite keep_positive_eq. done.
Qed.

(** ** Delivery in any order *)
Lemma run_offsets_lookup ws : forall b i, i <= length ws -> (b :: run_offsets b ws) !! i = Some (b + sum_list (take i ws)).
Proof.
  induction ws as [|w ws IH]; intros b i Hi.
  - simpl in Hi. assert (i = 0) as -> by lia. simpl. f_equal. lia.
  - destruct i as [|i]; [simpl; f_equal; lia|]. cbn [run_offsets lookup list_lookup]. simpl in Hi.
    rewrite IH by lia. simpl. f_equal. lia.
Qed.

Lemma deliver_ok {A} lo (msg imports : list (option A)) : lo + length msg <= length imports ->
  exists imports', deliver lo (lo + length msg) msg imports = Some imports' /\ length imports' = length imports /\
    (forall p, p < length msg -> imports' !! (lo + p) = msg !! p) /\
    (forall q, q < lo \/ lo + length msg <= q -> imports' !! q = imports !! q).
Proof.
  intros H. unfold deliver.
  destruct (Nat.leb_spec lo (lo + length msg)); [|lia]. destruct (Nat.leb_spec (lo + length msg) (length imports)); [|lia].
  destruct (Nat.eqb_spec (length msg) (lo + length msg - lo)); [|lia]. simpl.
  eexists. split; [done|]. split; [rewrite !app_length, take_length, drop_length; lia|]. split.
  - intros p Hp. rewrite lookup_app_r; rewrite take_length; [|lia]. rewrite lookup_app_l by lia. f_equal. lia.
  - intros q [Hq|Hq].
    + rewrite lookup_app_l by (rewrite take_length; lia). by rewrite lookup_take.
    + rewrite lookup_app_r; rewrite take_length; [|lia]. rewrite lookup_app_r by lia. rewrite lookup_drop. f_equal. lia.
Qed.

Section Deliver.
Context {A : Type}.
Variables (r : nat) (sent : list (send_plan * list (option A))) (E : list (nat * nat)) (M : list (list (option A))).
Hypothesis HM : Forall2 (fun e m => length m = e.2 /\ exists p ex, sent !! e.1 = Some (p, ex) /\ outgoing p ex r = Some m) E M.

Lemma weights : length <$> M = E.*2.
Proof. clear -HM. induction HM as [|e m E M [? ?] HF IH]; csimpl; [done|]. f_equal; auto. Qed.

Lemma doPosts_ok arrival : forall imports (done : list nat),
  NoDup arrival -> (forall i, i ∈ arrival -> i < length E) -> (forall i, i ∈ arrival -> i ∉ done) ->
  length imports = sum_list (length <$> M) ->
  (forall i m p v, i ∈ done -> M !! i = Some m -> m !! p = Some v -> imports !! (sum_list (take i (length <$> M)) + p) = Some v) ->
  exists out, doPosts r sent E.*1 (0 :: run_offsets 0 E.*2) arrival imports = Some out /\ length out = length imports /\
    (forall i m p v, i ∈ arrival \/ i ∈ done -> M !! i = Some m -> m !! p = Some v -> out !! (sum_list (take i (length <$> M)) + p) = Some v).
Proof.
  induction arrival as [|i arrival IH]; intros imports dn ND Hb Hdn Hl Hin.
  { exists imports. split; [done|]. split; [done|]. intros j m p v [Hj|Hj]; [by apply elem_of_nil in Hj|by apply Hin]. }
  apply NoDup_cons in ND as [Hni ND].
  assert (i < length E) as Hi by (apply Hb; left).
  destruct (lookup_lt_is_Some_2 E i Hi) as [e He].
  destruct (Forall2_lookup_l _ _ _ _ _ HM He) as (m&Hm&Hlen&p&ex&Hs&Ho).
  cbn [doPosts]. rewrite list_lookup_fmap, He. cbn [fmap option_fmap option_map mbind option_bind].
  rewrite run_offsets_lookup by (rewrite fmap_length; lia). cbn [mbind option_bind].
  rewrite run_offsets_lookup by (rewrite fmap_length; lia). cbn [mbind option_bind].
  rewrite Hs. cbn [mbind option_bind]. rewrite Ho. cbn [mbind option_bind].
  rewrite !Nat.add_0_l, <- weights.
  assert ((length <$> M) !! i = Some (length m)) as Hmi by (by rewrite list_lookup_fmap, Hm).
  rewrite (sum_take_S _ _ _ Hmi).
  pose proof (sum_take_le (length <$> M) (S i)) as Hle. rewrite (sum_take_S _ _ _ Hmi) in Hle.
  destruct (deliver_ok (sum_list (take i (length <$> M))) m imports) as (imports'&E'&L'&In'&Out'); [lia|].
  rewrite E'. cbn [mbind option_bind]. rewrite weights.
  destruct (IH imports' (i :: dn)) as (out&Eo&Lo&Ho').
  - done.
  - intros j Hj. apply Hb. by right.
  - intros j Hj. apply not_elem_of_cons. split; [intros ->; done|]. apply Hdn. by right.
  - congruence.
  - intros j mj q v Hj Hmj Hv. pose proof (lookup_lt_Some _ _ _ Hv) as Hq.
    destruct (decide (j = i)) as [->|Hne].
    + assert (mj = m) as -> by congruence. rewrite In'; done.
    + apply elem_of_cons in Hj as [|Hj]; [done|].
      assert ((length <$> M) !! j = Some (length mj)) as Hmj' by (by rewrite list_lookup_fmap, Hmj).
      rewrite Out'; [by eapply Hin|].
      destruct (Nat.lt_ge_cases j i).
      * pose proof (sum_take_mono (length <$> M) (S j) i ltac:(lia)) as Hx. rewrite (sum_take_S _ _ _ Hmj') in Hx. lia.
      * pose proof (sum_take_mono (length <$> M) (S i) j ltac:(lia)) as Hx. rewrite (sum_take_S _ _ _ Hmi) in Hx. lia.
  - exists out. split; [done|]. split; [congruence|].
    rewrite <- weights. intros j mj q v Hj. apply Ho'. destruct Hj as [Hj|Hj]; [|by right; right].
    apply elem_of_cons in Hj as [->|Hj]; [right; left|by left].
Qed.

Lemma doPosts_concat arrival : arrival ≡ₚ seq 0 (length E) ->
  doPosts r sent E.*1 (0 :: run_offsets 0 E.*2) arrival (replicate (sum_list (length <$> M)) None) = Some (concat M).
Proof.
  intros HA. destruct (doPosts_ok arrival (replicate (sum_list (length <$> M)) None) []) as (out&Eo&Lo&Ho).
  - rewrite HA. apply NoDup_seq.
  - intros i Hi. rewrite HA in Hi. apply elem_of_seq in Hi. lia.
  - intros i _. apply not_elem_of_nil.
  - by rewrite replicate_length.
  - intros i m p v Hi. by apply elem_of_nil in Hi.
  - rewrite Eo. f_equal. rewrite replicate_length in Lo.
    apply list_eq_same_length with (n := sum_list (length <$> M)); [by rewrite length_concat|done|].
    intros d x y Hd Hx Hy.
    destruct (layout_find _ _ Hd) as (q&p&l&Hq&Hp&->).
    rewrite list_lookup_fmap in Hq. destruct (M !! q) as [m|] eqn:Em; [|done]. injection Hq as <-.
    destruct (lookup_lt_is_Some_2 m p Hp) as [v Hv].
    rewrite (concat_at M q m p v Em Hv) in Hy. rewrite (Ho q m p v) in Hx; [congruence| |done|done].
    left. rewrite HA. apply elem_of_seq. apply lookup_lt_Some in Em. apply Forall2_length in HM. lia.
Qed.
End Deliver.

Lemma pos_concat {A} (L : list (list A)) (f : nat -> list A) : forall i, (forall k l, L !! k = Some l -> f (i + k) = l) ->
  concat ((fun e => f e.1) <$> pos_edges i (length <$> L)) = concat L.
Proof.
  induction L as [|l L IH]; intros i H; [done|]. csimpl.
  assert (concat ((fun e => f e.1) <$> pos_edges (S i) (length <$> L)) = concat L) as IH'.
  { apply IH. intros k l' Hk. rewrite <- (H (S k) l'); [f_equal; lia|done]. }
  destruct (Nat.ltb_spec 0 (length l)).
  - csimpl. rewrite IH'. f_equal. rewrite <- (H 0 l); [f_equal; lia|done].
  - destruct l; [|simpl in *; lia]. done.
Qed.

(** Schedules a distributed run may have. *)
Definition OrderOK (rss : list (list nat)) (order : nat -> list nat) : Prop :=
  forall s rs, rss !! s = Some rs -> order s ≡ₚ seq 0 (length rs).
Definition ArrivalOK (pl : plan) (arrival : nat -> list nat) : Prop :=
  forall r srcs soffs, pl_recv pl !! r = Some (srcs, soffs) -> arrival r ≡ₚ seq 0 (length srcs).
Definition GraphOK (plans : list send_plan) (graph : option (nat -> list (nat * nat))) : Prop :=
  forall sorted r, graph = Some sorted -> r < length plans ->
    sorted r ≡ₚ in_edges plans r /\ StronglySorted src_le (sorted r).

Lemma prepare_ok rss plans graph : Forall2 PlanOK rss plans -> GraphOK plans graph ->
  (forall s rs d, rss !! s = Some rs -> d ∈ rs -> d < length plans) ->
  prepare graph plans = Some (Plan plans
    ((fun r => receive_graph (pos_edges 0 ((fun rs => cntb (fun y => y =? r) rs) <$> rss))) <$> seq 0 (length plans))).
Proof.
  intros HF HG Hb. unfold prepare.
  assert (mapM (fun r => match graph with None => receive_dense plans r | Some sorted => Some (receive_graph (sorted r)) end)
    (seq 0 (length plans)) = Some ((fun r => receive_graph (pos_edges 0 ((fun rs => cntb (fun y => y =? r) rs) <$> rss))) <$> seq 0 (length plans))) as ->; [|done].
  apply mapM_Some. apply Forall2_fmap_r. apply Forall_Forall2_diag. apply Forall_forall. intros r Hr.
  apply elem_of_seq in Hr as [_ Hr]. simpl in Hr. destruct graph as [sorted|].
  - destruct (HG sorted r eq_refl Hr) as [HP HS]. rewrite (in_edges_ok rss) in HP by done.
    by rewrite (sorted_edges_unique _ _ _ HP HS).
  - by apply (receive_dense_ok rss).
Qed.

Lemma sum_list_items {A} r (rss : list (list nat)) (xss : list (list A)) : Forall2 (fun rs xs => length xs = length rs) rss xss ->
  length <$> zip_with (items_for r) rss xss = (fun rs => cntb (fun y => y =? r) rs) <$> rss.
Proof. induction 1; csimpl; [done|]. f_equal; [|done]. by rewrite items_for_length. Qed.

Lemma exchange_ok {A} rss plans (xss : list (list (option A))) recvs order arrival :
  Forall2 PlanOK rss plans -> Forall2 (fun rs xs => length xs = length rs) rss xss ->
  recvs = (fun r => receive_graph (pos_edges 0 ((fun rs => cntb (fun y => y =? r) rs) <$> rss))) <$> seq 0 (length plans) ->
  OrderOK rss order -> ArrivalOK (Plan plans recvs) arrival ->
  exchange (Plan plans recvs) order arrival xss = Some ((fun r => delivered r rss xss) <$> seq 0 (length plans)).
Proof.
  intros HF HX ER HO HA. unfold exchange. cbn [pl_send pl_recv].
  pose proof (Forall2_length _ _ _ HF) as L1. pose proof (Forall2_length _ _ _ HX) as L2.
  rewrite (proj2 (Nat.eqb_eq _ _)) by congruence.
  assert (exists sent, mapM (fun s => p ← plans !! s; ex ← xss !! s; px ← permuted_exports p (order s) ex; Some (p, px)) (seq 0 (length plans)) = Some sent /\
    length sent = length plans /\
    forall s rs xs, rss !! s = Some rs -> xss !! s = Some xs -> exists p px, sent !! s = Some (p, px) /\ forall d, d ∈ rs -> outgoing p px d = Some (items_for d rs xs)) as (sent&->&Ls&HS).
  { assert (forall s, s < length plans -> exists rs xs p px, rss !! s = Some rs /\ xss !! s = Some xs /\ plans !! s = Some p /\
      permuted_exports p (order s) xs = Some px /\ forall d, d ∈ rs -> outgoing p px d = Some (items_for d rs xs)) as Hall.
    { intros s Hs. destruct (lookup_lt_is_Some_2 plans s Hs) as [p Hp].
      destruct (Forall2_lookup_r _ _ _ _ _ HF Hp) as (rs&Hrs&HP).
      destruct (Forall2_lookup_l _ _ _ _ _ HX Hrs) as (xs&Hxs&Hlen).
      destruct (po_send _ _ HP A xs (order s) Hlen (HO s rs Hrs)) as (px&E&Hout).
      by exists rs, xs, p, px. }
    assert (is_Some (mapM (fun s => p ← plans !! s; ex ← xss !! s; px ← permuted_exports p (order s) ex; Some (p, px)) (seq 0 (length plans)))) as [sent Hsent].
    { apply mapM_is_Some. apply Forall_forall. intros s Hs. apply elem_of_seq in Hs as [_ Hs]. simpl in Hs.
      destruct (Hall s Hs) as (rs&xs&p&px&_&H2&H3&H4&_).
      change (is_Some (p ← plans !! s; ex ← xss !! s; px ← permuted_exports p (order s) ex; Some (p, px))). rewrite H3. cbn [mbind option_bind]. rewrite H2. cbn [mbind option_bind]. rewrite H4. by eexists. }
    exists sent. split; [done|]. apply mapM_Some in Hsent. split; [by rewrite <- (Forall2_length _ _ _ Hsent), seq_length|].
    intros s rs xs Hrs Hxs. pose proof (lookup_lt_Some _ _ _ Hrs) as Hs. rewrite L1 in Hs.
    destruct (Hall s Hs) as (rs'&xs'&p&px&H1&H2&H3&H4&H5).
    assert (rs' = rs) as -> by congruence. assert (xs' = xs) as -> by congruence.
    exists p, px. split; [|done].
    destruct (Forall2_lookup_l _ _ _ s s Hsent) as (y&Hy&Ey); [by apply lookup_seq|].
    rewrite H3 in Ey. cbn [mbind option_bind] in Ey. rewrite H2 in Ey. cbn [mbind option_bind] in Ey. rewrite H4 in Ey. cbn [mbind option_bind] in Ey. congruence. }
  cbn [mbind option_bind].
  apply mapM_Some. apply Forall2_fmap_r. apply Forall_Forall2_diag. apply Forall_forall. intros r Hr.
  apply elem_of_seq in Hr as [_ Hr]. simpl in Hr.
  set (E := pos_edges 0 ((fun rs => cntb (fun y => y =? r) rs) <$> rss)).
  assert (recvs !! r = Some (E.*1, 0 :: run_offsets 0 E.*2)) as Hrec.
  { rewrite ER, list_lookup_fmap. rewrite (proj2 (lookup_seq 0 (length plans) r r)) by lia. done. }
  rewrite Hrec. cbn [mbind option_bind]. rewrite run_offsets_last. cbn [mbind option_bind]. rewrite Nat.add_0_l.
  set (f := fun s => items_for r (default [] (rss !! s)) (default [] (xss !! s))).
  assert (forall k l, zip_with (items_for r) rss xss !! k = Some l -> f k = l) as Hf.
  { intros k l Hk. apply lookup_zip_with_Some in Hk as (rs&xs&->&H1&H2). unfold f. by rewrite H1, H2. }
  assert (Forall2 (fun e m => length m = e.2 /\ exists p ex, sent !! e.1 = Some (p, ex) /\ outgoing p ex r = Some m) E ((fun e => f e.1) <$> E)) as HM.
  { apply Forall2_fmap_r. apply Forall_Forall2_diag. apply Forall_forall. intros [s c] Hin. simpl.
    apply pos_edges_elem in Hin as (_&Hc&Hpos). rewrite Nat.sub_0_r, list_lookup_fmap in Hc.
    destruct (rss !! s) as [rs|] eqn:Hrs; [|done]. injection Hc as <-.
    destruct (Forall2_lookup_l _ _ _ _ _ HX Hrs) as (xs&Hxs&Hlen).
    unfold f. rewrite Hrs, Hxs. simpl. split; [by apply items_for_length|].
    destruct (HS s rs xs Hrs Hxs) as (p&px&H1&H2). exists p, px. split; [done|]. apply H2.
    apply cntb_pos in Hpos as (x&Hx&Ex). apply Nat.eqb_eq in Ex. congruence. }
  pose proof (doPosts_concat r sent E _ HM (arrival r)) as HD. rewrite (weights r sent E _ HM) in HD. rewrite HD.
  - f_equal. unfold delivered, E. rewrite <- (sum_list_items r rss xss HX). by apply pos_concat.
  - specialize (HA r _ _ Hrec). by rewrite fmap_length in HA.
Qed.
