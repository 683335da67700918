(** The shape determined by a split-strength sequence without unseparated ties (proof file). *)
From Verif Require Export TreeSpec.

Section Shape.
Variable m : nat.
Hypothesis m_pos : 1 <= m.
Variable e : nat -> Z.
Hypothesis e_out : forall k, 1 <= k <= m -> (e k < e 0)%Z /\ (e k < e (S m))%Z.
Hypothesis e_ends : (e 0 <= e (S m))%Z.
Hypothesis e_tie : forall i j, 1 <= i < j -> j <= m -> e i = e j -> exists k, i < k < j /\ (e i < e k)%Z.

Definition Nd l r := l <= r <= m /\ forall k, l < k <= r -> (e k < e l)%Z /\ (e k < e (S r))%Z.
Definition Kids l s r := l <= s < r /\ Nd l r /\ forall k, l < k <= r -> k <> S s -> (e k < e (S s))%Z.

(** Karras index and node index *)
Definition K l r := if (e (S r) <? e l)%Z then r else l.
Definition idx l r := if l =? r then l else K l r + m + 1.

Lemma Nd_leaf i : i <= m -> Nd i i.
Proof. split; [lia|]. intros; lia. Qed.

Lemma Nd_root : Nd 0 m.
Proof. split; [lia|]. intros k Hk. apply e_out. lia. Qed.

Lemma Kids_left l s r : Kids l s r -> Nd l s /\ (e (S s) < e l)%Z.
Proof.
  intros (H1 & (H2 & H3) & H4). destruct (H3 (S s)) as [A B]; [lia|].
  split; [|lia]. split; [lia|]. intros k Hk. split; [apply H3; lia|]. apply H4; lia.
Qed.

Lemma Kids_right l s r : Kids l s r -> Nd (S s) r /\ (e (S s) < e (S r))%Z.
Proof.
  intros (H1 & (H2 & H3) & H4). destruct (H3 (S s)) as [A B]; [lia|].
  split; [|lia]. split; [lia|]. intros k Hk. split; [apply H4; lia|]. apply H3; lia.
Qed.

Lemma Kids_split l s s' r : Kids l s r -> Kids l s' r -> s = s'.
Proof.
  intros (H1 & H2 & H3) (H1' & H2' & H3').
  destruct (decide (s = s')); [done|].
  pose proof (H3 (S s') ltac:(lia) ltac:(lia)). pose proof (H3' (S s) ltac:(lia) ltac:(lia)). lia.
Qed.

Lemma Kids_range l s r l' r' : Kids l s r -> Kids l' s r' -> l = l' /\ r = r'.
Proof.
  intros (H1 & (H2 & H3) & H4) (H1' & (H2' & H3') & H4').
  split.
  - destruct (Nat.lt_trichotomy l l') as [?|[?|?]]; [|done|].
    + pose proof (H3' (S s) ltac:(lia)). pose proof (H4 l' ltac:(lia) ltac:(lia)). lia.
    + pose proof (H3 (S s) ltac:(lia)). pose proof (H4' l ltac:(lia) ltac:(lia)). lia.
  - destruct (Nat.lt_trichotomy r r') as [?|[?|?]]; [|done|].
    + pose proof (H3 (S s) ltac:(lia)). pose proof (H4' (S r) ltac:(lia) ltac:(lia)). lia.
    + pose proof (H3' (S s) ltac:(lia)). pose proof (H4 (S r') ltac:(lia) ltac:(lia)). lia.
Qed.

Lemma e_adj k : 1 <= k < m -> e k <> e (S k).
Proof. intros Hk E. destruct (e_tie k (S k)) as (x & ? & ?); auto; lia. Qed.

(** every range has a strict maximum *)
Lemma max_exists l r : l < r -> r <= m -> exists s, l < s <= r /\ forall k, l < k <= r -> k <> s -> (e k < e s)%Z.
Proof.
  intros Hlr Hm. induction r as [|r IH]; [lia|].
  destruct (decide (l = r)) as [->|].
  { exists (S r). split; [lia|]. intros; lia. }
  destruct IH as (s & Hs & Hmax); [lia|lia|].
  destruct (Z.lt_trichotomy (e s) (e (S r))) as [Hlt|[Heq|Hgt]].
  - exists (S r). split; [lia|]. intros k Hk Hne.
    destruct (decide (k = s)); [subst; lia|]. pose proof (Hmax k ltac:(lia) ltac:(lia)). lia.
  - exfalso. destruct (e_tie s (S r)) as (k & Hk & Hgt); [lia|lia|done|].
    pose proof (Hmax k ltac:(lia) ltac:(lia)). lia.
  - exists s. split; [lia|]. intros k Hk Hne.
    destruct (decide (k = S r)); [subst; lia|]. apply Hmax; lia.
Qed.

Lemma Nd_split l r : Nd l r -> l < r -> exists s, Kids l s r.
Proof.
  intros HN Hlr. destruct (max_exists l r Hlr) as (s & Hs & Hmax); [destruct HN; lia|].
  exists (s - 1). split; [lia|]. split; [done|].
  replace (S (s - 1)) with s by lia. done.
Qed.

(** bounds of the range split at strength index s *)
Lemma right_bound s : 1 <= s <= m -> exists r, s <= r <= m /\ (e s < e (S r))%Z /\ forall k, s < k <= r -> (e k < e s)%Z.
Proof.
  intros Hs. remember (m - s) as d eqn:Hd.
  assert (forall d r, m - r = d -> s <= r <= m -> (forall k, s < k <= r -> (e k < e s)%Z) ->
     exists r, s <= r <= m /\ (e s < e (S r))%Z /\ forall k, s < k <= r -> (e k < e s)%Z) as Hgo.
  { clear d Hd. induction d as [|d IH]; intros r Hd Hr Hall.
    - assert (r = m) by lia. subst. exists m. repeat split; auto; try lia. apply e_out; lia.
    - destruct (Z.lt_trichotomy (e s) (e (S r))) as [Hlt|[Heq|Hgt]].
      + exists r. repeat split; auto; lia.
      + exfalso. destruct (e_tie s (S r)) as (k & Hk & Hgt); [lia|lia|done|].
        pose proof (Hall k ltac:(lia)). lia.
      + apply (IH (S r)); [lia|lia|]. intros k Hk. destruct (decide (k = S r)); [subst; lia|]. apply Hall; lia. }
  apply (Hgo d s); auto; try lia.
Qed.

Lemma left_bound s : 1 <= s <= m -> exists l, l < s /\ (e s < e l)%Z /\ forall k, l < k < s -> (e k < e s)%Z.
Proof.
  intros Hs.
  assert (forall l, l < s -> (forall k, l < k < s -> (e k < e s)%Z) ->
     exists l, l < s /\ (e s < e l)%Z /\ forall k, l < k < s -> (e k < e s)%Z) as Hgo.
  { induction l as [|l IH]; intros Hl Hall.
    - exists 0. repeat split; auto. apply e_out; lia.
    - destruct (Z.lt_trichotomy (e s) (e (S l))) as [Hlt|[Heq|Hgt]].
      + exists (S l). auto.
      + exfalso. destruct (e_tie (S l) s) as (k & Hk & Hgt); [lia|lia|done|].
        pose proof (Hall k ltac:(lia)). lia.
      + apply IH; [lia|]. intros k Hk. destruct (decide (k = S l)); [subst; lia|]. apply Hall; lia. }
  apply (Hgo (s - 1)); [lia|]. intros; lia.
Qed.

Lemma split_exists s : s < m -> exists l r, Kids l s r.
Proof.
  intros Hs. destruct (right_bound (S s)) as (r & Hr1 & Hr2 & Hr3); [lia|].
  destruct (left_bound (S s)) as (l & Hl1 & Hl2 & Hl3); [lia|].
  exists l, r. split; [lia|]. split.
  - split; [lia|]. intros k Hk.
    destruct (Nat.lt_trichotomy k (S s)) as [?|[->|?]].
    + pose proof (Hl3 k ltac:(lia)). lia.
    + lia.
    + pose proof (Hr3 k ltac:(lia)). lia.
  - intros k Hk Hne. destruct (decide (k < S s)); [apply Hl3; lia|apply Hr3; lia].
Qed.

(** Every non-root node has a parent, decided by comparing its two boundary strengths. *)
Lemma Nd_no_tie l r : Nd l r -> ~ (l = 0 /\ r = m) -> e l <> e (S r).
Proof.
  intros (H1 & H2) Hroot Heq.
  destruct (decide (l = 0)) as [->|].
  { pose proof (e_out (S r) ltac:(lia)). lia. }
  destruct (decide (r = m)) as [->|].
  { pose proof (e_out l ltac:(lia)). lia. }
  destruct (e_tie l (S r)) as (k & Hk & Hgt); [lia|lia|done|].
  pose proof (H2 k ltac:(lia)). lia.
Qed.

Lemma Nd_parent_left l r : Nd l r -> (e (S r) < e l)%Z -> exists r', Kids l r r'.
Proof.
  intros HN Hlt. pose proof HN as (H1 & H2).
  assert (r < m). { destruct (decide (r = m)) as [->|]; [|lia].
    destruct (decide (l = 0)) as [->|]; [lia|pose proof (e_out l ltac:(lia)); lia]. }
  destruct (split_exists r) as (l' & r' & HK); [lia|].
  assert (l' = l) as ->; [|by exists r'].
  pose proof HK as (A & (B & C) & D).
  destruct (Nat.lt_trichotomy l l') as [?|[?|?]]; [|done|].
  + pose proof (C (S r) ltac:(lia)). pose proof (H2 l' ltac:(lia)). lia.
  + pose proof (D l ltac:(lia) ltac:(lia)). lia.
Qed.

Lemma Nd_parent_right l r : Nd l r -> ~ (l = 0 /\ r = m) -> ~ (e (S r) < e l)%Z ->
  0 < l /\ (e l < e (S r))%Z /\ exists l', Kids l' (l - 1) r.
Proof.
  intros HN Hroot Hlt. pose proof HN as (H1 & H2). pose proof (Nd_no_tie _ _ HN Hroot).
  assert (e l < e (S r))%Z by lia.
  assert (0 < l). { destruct (decide (l = 0)) as [->|]; [|lia].
    pose proof (e_out (S r) ltac:(lia)). lia. }
  split; [done|]. split; [done|].
  destruct (split_exists (l - 1)) as (l' & r' & HK); [lia|].
  assert (r' = r) as ->; [|by exists l'].
  pose proof HK as (A & (B & C) & D). replace (S (l - 1)) with l in * by lia.
  destruct (Nat.lt_trichotomy r r') as [?|[?|?]]; [|done|].
  + pose proof (D (S r) ltac:(lia) ltac:(lia)). lia.
  + pose proof (C l ltac:(lia)). pose proof (H2 (S r') ltac:(lia)). lia.
Qed.

Lemma Kids_not_root_l l s r : Kids l s r -> ~ (l = 0 /\ s = m).
Proof. intros (? & (? & ?) & ?). lia. Qed.
Lemma Kids_not_root_r l s r : Kids l s r -> ~ (S s = 0 /\ r = m).
Proof. lia. Qed.

Lemma K_root : K 0 m = 0.
Proof. unfold K. destruct (Z.ltb_spec (e (S m)) (e 0)); lia. Qed.

Lemma K_left l s r : Kids l s r -> K l s = s.
Proof. intros H. destruct (Kids_left _ _ _ H) as [_ ?]. unfold K. destruct (Z.ltb_spec (e (S s)) (e l)); lia. Qed.
Lemma K_right l s r : Kids l s r -> K (S s) r = S s.
Proof. intros H. destruct (Kids_right _ _ _ H) as [_ ?]. unfold K. destruct (Z.ltb_spec (e (S r)) (e (S s))); lia. Qed.

Lemma K_lt l r : Nd l r -> l < r -> K l r < m.
Proof.
  intros HN Hlr. unfold K. destruct (Z.ltb_spec (e (S r)) (e l)) as [H|H].
  - destruct (Nd_parent_left _ _ HN H) as (r' & (A & (B & C) & D)). lia.
  - destruct HN as [? ?]. lia.
Qed.

Lemma K_zero l r : Nd l r -> l < r -> K l r = 0 -> l = 0 /\ r = m.
Proof.
  intros HN Hlr HK. destruct (decide (l = 0 /\ r = m)); [done|].
  unfold K in HK. destruct (Z.ltb_spec (e (S r)) (e l)) as [H|H]; [lia|].
  destruct (Nd_parent_right _ _ HN) as (? & _); auto; lia.
Qed.

Lemma K_inj l r l' r' : Nd l r -> l < r -> Nd l' r' -> l' < r' -> K l r = K l' r' -> l = l' /\ r = r'.
Proof.
  intros HN Hlr HN' Hlr' HK.
  destruct (decide (l = 0 /\ r = m)) as [[-> ->]|Hroot].
  { rewrite K_root in HK. destruct (K_zero l' r'); auto. }
  destruct (decide (l' = 0 /\ r' = m)) as [[-> ->]|Hroot'].
  { rewrite K_root in HK. destruct (K_zero l r); auto. }
  unfold K in HK.
  destruct (Z.ltb_spec (e (S r)) (e l)) as [H|H], (Z.ltb_spec (e (S r')) (e l')) as [H'|H'].
  - subst r'. destruct (Nd_parent_left _ _ HN H) as (x & HX), (Nd_parent_left _ _ HN' H') as (x' & HX').
    destruct (Kids_range _ _ _ _ _ HX HX'). auto.
  - exfalso. subst l'. destruct (Nd_parent_right _ _ HN' Hroot') as (? & ? & x' & HX'); [lia|].
    destruct (Nd_parent_left _ _ HN H) as (x & HX).
    destruct HN as [? A], HN' as [? B]. pose proof (A r ltac:(lia)). pose proof (B (S r) ltac:(lia)). lia.
  - exfalso. subst r'. destruct (Nd_parent_right _ _ HN Hroot) as (? & ? & x' & HX'); [lia|].
    destruct HN as [? A], HN' as [? B]. pose proof (B l ltac:(lia)). pose proof (A (S l) ltac:(lia)). lia.
  - subst l'. destruct (Nd_parent_right _ _ HN Hroot) as (? & ? & x & HX); [lia|].
    destruct (Nd_parent_right _ _ HN' Hroot') as (? & ? & x' & HX'); [lia|].
    destruct (Kids_range _ _ _ _ _ HX HX'). auto.
Qed.

Lemma K_surj k : k < m -> exists l r, Nd l r /\ l < r /\ K l r = k.
Proof.
  intros Hk. destruct (decide (k = 0)) as [->|].
  { exists 0, m. split; [apply Nd_root|]. split; [lia|apply K_root]. }
  pose proof (e_adj k ltac:(lia)).
  destruct (Z.lt_ge_cases (e (S k)) (e k)).
  - destruct (split_exists (k - 1)) as (l & r & HK); [lia|].
    pose proof (Kids_right _ _ _ HK) as [HN HE]. pose proof (K_right _ _ _ HK) as HKK.
    replace (S (k - 1)) with k in * by lia.
    exists k, r. split; [done|]. split; [|done].
    destruct HK as (A & (B & C) & D). destruct (decide (k = r)); [subst; lia|lia].
  - destruct (split_exists k) as (l & r & HK); [lia|].
    pose proof (Kids_left _ _ _ HK) as [HN HE]. pose proof (K_left _ _ _ HK) as HKK.
    exists l, k. split; [done|]. split; [|done].
    destruct HK as (A & (B & C) & D). destruct (decide (k = l)); [subst; lia|lia].
Qed.

(** The rope computed from the right end of a range *)
Definition rope r := if negb (r =? m) then Some (if (e (S r) <? e (S (S r)))%Z then S r else S r + m + 1) else None.

Lemma rope_left l s r : Kids l s r -> rope s = Some (idx (S s) r).
Proof.
  intros HK. pose proof HK as (A & (B & C) & D). unfold rope.
  destruct (Nat.eqb_spec s m); [lia|]. cbn [negb]. apply (f_equal Some). unfold idx.
  destruct (Nat.eqb_spec (S s) r) as [<-|].
  - pose proof (Kids_right _ _ _ HK) as [_ ?]. destruct (Z.ltb_spec (e (S s)) (e (S (S s)))); [done|lia].
  - rewrite (K_right _ _ _ HK). assert (e (S (S s)) < e (S s))%Z by (apply D; lia).
    destruct (Z.ltb_spec (e (S s)) (e (S (S s)))); [lia|done].
Qed.

Lemma rope_root : rope m = None.
Proof. unfold rope. by rewrite Nat.eqb_refl. Qed.
End Shape.
