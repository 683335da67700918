(** The dendrogram assembled from the sorted chains, without the machines. *)
From Verif Require Import PropertiesDendrogram.
From Verif Require Export HdbscanTree HdbscanSpec.
Local Open Scope nat_scope.

Lemma two_of (l : list nat) a b : NoDup l -> (forall x, x ∈ l -> x = a \/ x = b) -> length l <= 2.
Proof.
  intros HD HI. destruct l as [|x [|y [|u l]]]; [cbn; lia..|exfalso]. apply NoDup_cons in HD as [D1 HD]. apply NoDup_cons in HD as [D2 HD].
  assert (x <> y /\ x <> u /\ y <> u) as (? & ? & ?). { split_and!; intros ->; [apply D1; by left|apply D1; by right; left|apply D2; by left]. }
  destruct (HI x ltac:(by left)), (HI y ltac:(by right; left)), (HI u ltac:(by right; right; left)); congruence.
Qed.

Section Dendro.
Context (n : nat) (lt : nat * nat -> nat * nat -> bool) (PO : PairOrder n lt) (R : nat).
Notation SW := (po_weak n lt PO).
Notation stage := (stage n lt).
Notation B := (B n lt).
Notation Lev := (Lev n lt R).
Notation Stop := (Stop n lt R).
Notation Pr := (Pr n).
Hypothesis Htwo : forall i, i < R -> exists a b, a < n /\ b < n /\ stage i a <> stage i b.
Hypothesis Hone : forall a b, a < n -> b < n -> stage R a = stage R b.
Hypothesis HR : 0 < R.
Context (F : list (nat * nat)).
Notation m := (length F).
Hypothesis HFn : m = n - 1.
Hypothesis Hlev : forall e p, F !! e = Some p -> exists j, Lev j p.
Hypothesis Hmono : forall e p j e' p' j', F !! e = Some p -> F !! e' = Some p' -> Lev j p -> Lev j' p' -> j < j' -> e < e'.
Hypothesis Hcover : forall i v, i < R -> v < n -> exists e p, F !! e = Some p /\ SamePair (B i v) p.
Hypothesis HNR : NoRepeat F.
Hypothesis HK : forall e, e ∈ F -> Kruskal n lt e.
Hypothesis HSp : Spans n F.
Context (w : nat * nat -> Z).
Hypothesis Hw : forall p q, Pr p -> Pr q -> lt q p = false -> (w p <= w q)%Z.
Context (top : Z).
Hypothesis Htop : (2 * Z.of_nat m < top)%Z.

Definition side (s : nat) (b p : nat * nat) : Z := if Nat.eqb (stage s b.1) (stage s p.1) then 1 else 0.
Definition Key (p : nat * nat) (z : Z) : Prop := exists j s, Lev j p /\ Stop j s p /\
  (s = R /\ z = top \/ s < R /\ exists be b, F !! be = Some b /\ SamePair (B s p.1) b /\ z = (2 * Z.of_nat be + side s b p)%Z).

Context (idx pos : nat -> nat) (q : nat -> nat * nat) (z : nat -> Z).
Hypothesis Hidx : forall i, i < m -> idx i < m /\ pos (idx i) = i.
Hypothesis Hpos : forall e, e < m -> pos e < m /\ idx (pos e) = e.
Hypothesis Hq : forall i, i < m -> F !! idx i = Some (q i).
Hypothesis Hz : forall i, i < m -> Key (q i) (z i).
Hypothesis Hsort : forall i j, i <= j -> j < m -> (z i < z j \/ z i = z j /\ w (q i) <= w (q j))%Z.
Hypothesis Hfirst : forall i j, i < m -> j < m -> i = 0 \/ z (i - 1) <> z i -> z i = z j -> lt (q j) (q i) = false.
Context (par : list Z) (leaf : nat -> nat).
Hypothesis Hlen : length par = m + n.
Hypothesis Hroot : par !! (m - 1) = Some (-1)%Z.
Hypothesis Hpe : forall i, i < m - 1 -> par !! i = Some (Z.of_nat (if (z i =? z (S i))%Z then S i else pos (Z.to_nat (z i / 2)))).
Hypothesis Hpv : forall v, v < n -> exists e p, F !! e = Some p /\ SamePair (B 0 v) p /\ par !! leaf v = Some (Z.of_nat (pos e)).
Hypothesis Hleaf : forall x, m <= x < m + n -> exists v, v < n /\ leaf v = x.

Lemma h_same p p' : Pr p -> SamePair p p' -> w p = w p' /\ Pr p'.
Proof.
  intros Hp HS. assert (Pr p') as Hp' by (destruct Hp as (? & ? & ?); destruct HS as [->| ->]; unfold HdbscanTree.Pr; cbn; auto).
  split; [|done]. apply Z.le_antisymm; apply Hw; try done.
  - rewrite <- (lt_same n lt PO _ _ _ HS). apply (HdbscanTree.le_refl n lt PO).
  - rewrite <- (lt_same_r n lt PO _ _ _ HS). apply (HdbscanTree.le_refl n lt PO).
Qed.
Lemma F_pr e p : F !! e = Some p -> Pr p.
Proof. intros He. destruct (Hlev _ _ He) as [j Hj]. by apply (lev_pr n lt PO R Htwo j). Qed.
Lemma q_pr i : i < m -> Pr (q i). Proof. intros Hi. by eapply F_pr, Hq. Qed.
Lemma side_01 s b p : (0 <= side s b p <= 1)%Z.
Proof. unfold side. destruct (_ =? _); lia. Qed.
Lemma half be s b p : Z.to_nat ((2 * Z.of_nat be + side s b p) / 2) = be.
Proof. pose proof (side_01 s b p). rewrite Z.mul_comm, Z.div_add_l by lia. rewrite (Z.div_small (side s b p)) by lia. lia. Qed.
(** which component an edge leaves *)
Lemma side_comp s p b : s < R -> Pr p -> SamePair (B s p.1) b -> stage s p.1 = stage s (if decide (side s b p = 1%Z) then b.1 else b.2).
Proof.
  intros Hs (P1 & _) HS. destruct (B_out n lt PO R Htwo s p.1 Hs P1) as (_ & _ & O3 & O4). unfold side. destruct (Nat.eqb_spec (stage s b.1) (stage s p.1)) as [E|E].
  - by rewrite decide_True.
  - rewrite decide_False by done. destruct HS as [->| ->]; cbn [fst snd] in *; [done|]. done.
Qed.
Lemma key_level e p s : F !! e = Some p -> s < R -> (exists v, v < n /\ SamePair (B s v) p) -> Lev (S s) p.
Proof. intros He Hs (v & Hv & HS). split; [lia|]. exists v. split; [done|]. by replace (S s - 1) with s by lia. Qed.
(** edges with the same key stop at the same component *)
Lemma key_same p p' zz : Key p zz -> Key p' zz -> exists j s j', Lev j p /\ Stop j s p /\ Lev j' p' /\ Stop j' s p' /\ stage s p.1 = stage s p'.1.
Proof.
  intros (j & s & HL & HS & HZ) (j' & s' & HL' & HS' & HZ'). pose proof (lev_pr n lt PO R Htwo _ _ HL) as HP. pose proof (lev_pr n lt PO R Htwo _ _ HL') as HP'.
  assert (s = s' /\ stage s p.1 = stage s p'.1) as [<- E]; [|by exists j, s, j'].
  destruct HZ as [[-> EZ]|(Hs & be & b & Hbe & HB & EZ)], HZ' as [[-> EZ']|(Hs' & be' & b' & Hbe' & HB' & EZ')].
  - split; [done|]. apply Hone; [apply HP|apply HP'].
  - exfalso. pose proof (lookup_lt_Some _ _ _ Hbe'). pose proof (side_01 s' b' p'). lia.
  - exfalso. pose proof (lookup_lt_Some _ _ _ Hbe). pose proof (side_01 s b p). lia.
  - pose proof (side_01 s b p). pose proof (side_01 s' b' p'). assert (be = be' /\ side s b p = side s' b' p') as [<- Hsd] by lia. rewrite Hbe in Hbe'. injection Hbe' as <-.
    assert (S s = S s') as [= <-].
    { apply (lev_unique n lt PO R Htwo _ _ b b); [| |by left].
      - apply (key_level be); [done..|]. exists p.1. split; [apply HP|done].
      - apply (key_level be); [done..|]. exists p'.1. split; [apply HP'|done]. }
    split; [done|]. rewrite (side_comp s p b Hs HP HB), (side_comp s p' b Hs HP' HB'). by rewrite Hsd.
Qed.
Lemma stop_swap j s p : Lev j p -> Stop j s p -> Stop j s (p.2, p.1).
Proof.
  intros HL (H1 & H2 & H3). split; [done|]. assert (forall i, j <= i -> B i p.2 = B i p.1) as HB. { intros i Hi. apply B_same. symmetry. by apply (lev_in n lt PO R Htwo j). }
  cbn [fst]. split.
  - intros i Hi. rewrite (lt_swap n lt PO), HB by lia. by apply H2.
  - intros Hs. rewrite (lt_swap_l n lt PO), HB by lia. by apply H3.
Qed.
Lemma key_of p zz j s : Key p zz -> Lev j p -> Stop j s p -> s = R /\ zz = top \/ s < R /\ exists be b, F !! be = Some b /\ SamePair (B s p.1) b /\ zz = (2 * Z.of_nat be + side s b p)%Z.
Proof.
  intros (j' & s' & HL' & HS' & HZ) HL HS. assert (j = j') as <- by (apply (lev_unique n lt PO R Htwo _ _ p p); [done..|by left]).
  by assert (s = s') as <- by (by apply (stop_unique n lt PO R Htwo j _ _ p)).
Qed.
(** the edge named by a key has a larger key *)
Lemma key_up e p be b s zz : F !! be = Some b -> s < R -> F !! e = Some p -> SamePair (B s p.1) b -> Key b zz -> (2 * Z.of_nat be + 2 <= zz)%Z.
Proof.
  intros Hbe Hs He HB (j & s' & HL & HS & HZ). assert (Lev (S s) b) as HL2. { apply (key_level be); [done..|]. exists p.1. split; [apply (F_pr e p He)|done]. }
  assert (j = S s) as -> by (apply (lev_unique n lt PO R Htwo _ _ b b); [done..|by left]). pose proof (lookup_lt_Some _ _ _ Hbe).
  destruct HZ as [[-> ->]|(Hs' & ga & g & Hga & HG & ->)]; [lia|]. destruct HS as [Hss _]. assert (be < ga); [|pose proof (side_01 s' g b); lia].
  assert (Lev (S s') g) as HLg. { apply (key_level ga); [done..|]. exists b.1. split; [apply (F_pr be b Hbe)|done]. }
  by apply (Hmono be b (S s) ga g (S s')); [..|lia].
Qed.

(** ** Parents *)
Definition LeW (h : Z) (a b : nat) : Prop := Pr (a, b) /\ (w (a, b) <= h)%Z.
Lemma conn_le p h a b : Pr p -> (w p <= h)%Z -> Conn (BelowEq n lt p) a b -> Conn (LeW h) a b.
Proof.
  intros Hp Hh. apply conn_mono. intros x y (Hx & Hy & Hne & Hl). split; [by split_and!|]. etransitivity; [|exact Hh]. apply Hw; [by split_and!|done..].
Qed.
Lemma parent_ok i : i < m - 1 -> exists i', par !! i = Some (Z.of_nat i') /\ i < i' < m /\ (w (q i) <= w (q i'))%Z /\ Conn (LeW (w (q i'))) (q i).1 (q i').1 /\
  (z i = z i' /\ i' = S i \/ z i <> z (S i) /\ (z i < z i')%Z /\ exists j s, Lev j (q i) /\ Stop j s (q i) /\ s < R /\ SamePair (B s (q i).1) (q i') /\ z i = (2 * Z.of_nat (idx i') + side s (q i') (q i))%Z).
Proof.
  intros Hi. rewrite (Hpe i Hi). eexists. split; [done|]. pose proof (q_pr i ltac:(lia)) as HP. destruct (Z.eqb_spec (z i) (z (S i))) as [E|E].
  - pose proof (q_pr (S i) ltac:(lia)) as HP'. assert (w (q i) <= w (q (S i)))%Z as Hle by (destruct (Hsort i (S i)) as [|[]]; lia).
    split; [lia|]. split; [done|]. split; [|by left].
    pose proof (Hz i ltac:(lia)) as K1. pose proof (Hz (S i) ltac:(lia)) as K2. rewrite <- E in K2. destruct (key_same _ _ _ K1 K2) as (j & s & j' & L1 & S1 & L2 & S2 & Es).
    destruct (lt (q (S i)) (q i)) eqn:El.
    + apply (conn_le (q i)); [done..|]. apply conn_sym. apply (chain_conn n lt PO R Htwo j' s _ j); [done..|]. by apply (HdbscanTree.lt_le n lt PO).
    + apply (conn_le (q (S i))); [done|lia|]. by apply (chain_conn n lt PO R Htwo j s _ j').
  - pose proof (Hz i ltac:(lia)) as K1. pose proof K1 as (j & s & HL & HS & HZ). assert (z i < z (S i))%Z as Hlt by (destruct (Hsort i (S i)) as [|[]]; [lia|lia|done|done]).
    destruct HZ as [[-> Ez]|(Hs & be & b & Hbe & HB & Ez)].
    { exfalso. destruct (Hz (S i) ltac:(lia)) as (j' & s' & _ & _ & [[_ Ez']|(_ & be' & b' & Hbe' & _ & Ez')]); [lia|].
      pose proof (lookup_lt_Some _ _ _ Hbe'). pose proof (side_01 s' b' (q (S i))). lia. }
    assert (Z.to_nat (z i / 2) = be) as -> by (rewrite Ez; apply half). pose proof (lookup_lt_Some _ _ _ Hbe) as Hbem. destruct (Hpos be Hbem) as [Hp1 Hp2].
    assert (q (pos be) = b) as Eq. { pose proof (Hq (pos be) Hp1) as Hx. rewrite Hp2 in Hx. congruence. }
    pose proof (Hz (pos be) Hp1) as Kb. rewrite Eq in Kb. assert (z i < z (pos be))%Z as Hzz. { pose proof (key_up (idx i) (q i) be b s _ Hbe Hs (Hq i ltac:(lia)) HB Kb). pose proof (side_01 s b (q i)). lia. }
    assert (i < pos be). { destruct (decide (i < pos be)); [done|]. exfalso. destruct (Hsort (pos be) i) as [|[]]; lia. }
    split; [done|]. destruct (parent_conn n lt PO R Htwo j s (q i) HL HS Hs) as [Hl Hc]. pose proof (B_pr n lt PO R Htwo s (q i).1 Hs (proj1 HP)) as HPB. destruct (h_same _ _ HPB HB) as [Ew HPb].
    rewrite Eq. split; [rewrite <- Ew; apply Hw; try done; by apply (HdbscanTree.lt_le n lt PO)|]. split.
    + apply (conn_trans _ _ (B s (q i).1).1); [apply (conn_le (B s (q i).1)); [done|lia|done]|].
      destruct HB as [->| ->]; [apply conn_refl|]. cbn [fst]. apply conn_step. destruct HPB as (? & ? & ?). split; [by split_and!|]. rewrite <- surjective_pairing. lia.
    + right. split; [done|]. split; [done|]. exists j, s. rewrite Hp2. done.
Qed.

(** ** Below an edge everything is connected *)
Lemma above_inner i e : i < m -> Above par i e -> e < m /\ i < e /\ (w (q i) <= w (q e))%Z /\ Conn (LeW (w (q e))) (q i).1 (q e).1.
Proof.
  intros Hi HA. revert Hi. induction HA as [x e Hx|x y e Hx HA IH]; intros Hi.
  - destruct (decide (x < m - 1)) as [L|L].
    + destruct (parent_ok x L) as (i' & Hp & Hi' & Hww & Hc & _). rewrite Hp in Hx. injection Hx as Hx. assert (e = i') as -> by lia. split_and!; [lia|lia|done|done].
    + assert (x = m - 1) as -> by lia. rewrite Hroot in Hx. injection Hx. lia.
  - destruct (decide (x < m - 1)) as [L|L].
    + destruct (parent_ok x L) as (i' & Hp & Hi' & Hww & Hc & _). rewrite Hp in Hx. injection Hx as Hx. assert (y = i') as -> by lia. destruct IH as (I1 & I2 & I3 & I4); [lia|].
      split_and!; [lia|lia|lia|]. eapply conn_trans; [|exact I4]. revert Hc. apply conn_mono. intros a b [Hp1 Hp2]. split; [done|]. lia.
    + assert (x = m - 1) as -> by lia. rewrite Hroot in Hx. injection Hx. lia.
Qed.
Lemma leaf_parent v : v < n -> exists x, x < m /\ par !! leaf v = Some (Z.of_nat x) /\ SamePair (B 0 v) (q x) /\ (v = (q x).1 \/ v = (q x).2).
Proof.
  intros Hv. destruct (Hpv v Hv) as (e & p & He & HS & Hp). pose proof (lookup_lt_Some _ _ _ He) as Hem. destruct (Hpos e Hem) as [Hp1 Hp2]. exists (pos e).
  assert (q (pos e) = p) as ->. { pose proof (Hq (pos e) Hp1) as Hx. rewrite Hp2 in Hx. congruence. }
  split; [done|]. split; [done|]. split; [done|]. destruct (B_out n lt PO R Htwo 0 v HR Hv) as (_ & _ & O3 & _). change ((B 0 v).1 = v) in O3. destruct HS as [->| ->]; cbn [fst snd]; auto.
Qed.
Lemma above_leaf v e : v < n -> Above par (leaf v) e -> e < m /\ Conn (LeW (w (q e))) v (q e).1.
Proof.
  intros Hv HA. destruct (leaf_parent v Hv) as (x & Hx & Hp & HS & Hend). pose proof (q_pr x Hx) as (Q1 & Q2 & Q3).
  assert (forall h, (w (q x) <= h)%Z -> Conn (LeW h) v (q x).1) as H0.
  { intros h Hh. destruct Hend as [->| ->]; [apply conn_refl|]. apply conn_rev. split; [by split_and!|]. by rewrite <- surjective_pairing. }
  inversion HA as [x' e' Hx' E1 E2|x' y e' Hx' HA' E1 E2]; subst.
  - rewrite Hp in Hx'. injection Hx' as Hx'. assert (e = x) as -> by lia. split; [done|]. by apply H0.
  - rewrite Hp in Hx'. injection Hx' as Hx'. assert (y = x) as -> by lia. destruct (above_inner x e Hx HA') as (A1 & A2 & A3 & A4). split; [done|]. eapply conn_trans; [by apply H0|done].
Qed.

(** ** From a vertex one climbs to the edges that join it *)
Lemma above_trans x y e : Above par x y -> Above par y e -> Above par x e.
Proof. induction 1 as [x y Hx|x y' y Hx HA IH]; intros HB; [by apply (above_up _ x y)|]. apply (above_up _ x y'); [done|]. by apply IH. Qed.
Definition AboveEq (x e : nat) : Prop := x = e \/ Above par x e.
Lemma above_eq_trans x y e : Above par x y -> AboveEq y e -> Above par x e.
Proof. intros HA [->|HB]; [done|]. by apply (above_trans _ y). Qed.
Lemma chain_up i j : i <= j -> j < m -> z i = z j -> AboveEq i j.
Proof.
  intros Hij. induction Hij as [|j Hij IH]; intros Hj E; [by left|]. assert (z i = z j /\ z j = z (S j)) as [E1 E2].
  { destruct (Hsort i j) as [|[]]; [lia|lia| |]; destruct (Hsort j (S j)) as [|[]]; lia. }
  right. assert (Above par j (S j)) as HA. { apply above_parent. rewrite Hpe by lia. by rewrite (proj2 (Z.eqb_eq _ _) E2). }
  destruct (IH ltac:(lia) E1) as [->|HB]; [done|]. by apply (above_trans _ j).
Qed.
Lemma chain_last i : i < m -> z i <> top -> exists i', i <= i' < m - 1 /\ z i' = z i /\ z (S i') <> z i'.
Proof.
  intros Hi Hne. assert (z (m - 1) = top) as Htp.
  { destruct (Hcover (R - 1) 0) as (e & p & He & HS); [lia|lia|]. pose proof (lookup_lt_Some _ _ _ He) as Hem. destruct (Hpos e Hem) as [Hp1 Hp2].
    assert (q (pos e) = p) as Eq. { pose proof (Hq (pos e) Hp1) as Hx. rewrite Hp2 in Hx. congruence. }
    assert (z (pos e) = top) as Ez.
    { destruct (Hz (pos e) Hp1) as (j & s & HL & HSt & HZ). rewrite Eq in *. assert (Lev (S (R - 1)) p) as HL2. { apply (key_level e); [done|lia|]. exists 0. split; [lia|done]. } replace (S (R - 1)) with R in HL2 by lia.
      assert (j = R) as -> by (apply (lev_unique n lt PO R Htwo _ _ p p); [done..|by left]). destruct HSt as [Hss _]. destruct HZ as [[_ ->]|[Hs _]]; [done|lia]. }
    destruct (Hsort (pos e) (m - 1)) as [L|[L _]]; [lia|lia| |lia]. exfalso. destruct (Hz (m - 1) ltac:(lia)) as (j' & s' & _ & _ & [[_ Ez']|(_ & be' & b' & Hbe' & _ & Ez')]); [lia|].
    pose proof (lookup_lt_Some _ _ _ Hbe'). pose proof (side_01 s' b' (q (m - 1))). lia. }
  assert (forall d i, m - 1 - i <= d -> i < m -> z i <> top -> exists i', i <= i' < m - 1 /\ z i' = z i /\ z (S i') <> z i') as H; [|by apply (H m); [lia|..]]. clear i Hi Hne.
  induction d as [|d IH]; intros i Hd Hi Hne; [assert (i = m - 1) as -> by lia; done|].
  destruct (decide (z (S i) = z i)) as [E|E]; [|exists i; split_and!; [lia| |done|done]; destruct (decide (i = m - 1)) as [->|]; [done|lia]].
  destruct (decide (i = m - 1)) as [->|]; [done|]. destruct (IH (S i)) as (i' & H1 & H2 & H3); [lia|lia|congruence|]. exists i'. split_and!; [lia|lia|congruence|done].
Qed.
Lemma find_pos M j : Lev j M -> exists x, x < m /\ SamePair M (q x).
Proof.
  intros [Hj (v & Hv & HS)]. destruct (Hcover (j - 1) v) as (e & p & He & HB); [lia|done|]. pose proof (lookup_lt_Some _ _ _ He) as Hem. destruct (Hpos e Hem) as [Hp1 Hp2]. exists (pos e).
  split; [done|]. assert (q (pos e) = p) as ->. { pose proof (Hq (pos e) Hp1) as Hx. rewrite Hp2 in Hx. congruence. }
  apply (same_trans _ (B (j - 1) v)); [by apply same_sym|done].
Qed.
Lemma pos_unique x y : x < m -> y < m -> SamePair (q x) (q y) -> x = y.
Proof.
  intros Hx Hy HS. pose proof (HNR _ _ _ _ (Hq x Hx) (Hq y Hy) HS) as E. rewrite <- (proj2 (Hidx x Hx)), <- (proj2 (Hidx y Hy)). by rewrite E.
Qed.
Lemma stop_same j s M x : Lev j M -> Stop j s M -> SamePair M x -> Lev j x /\ Stop j s x /\ (forall i, j <= i -> stage i x.1 = stage i M.1).
Proof.
  intros HL HS HSP. split; [by apply (lev_same n lt R j M)|]. split.
  - destruct HSP as [->| ->]; [done|]. by apply stop_swap.
  - intros i Hi. destruct HSP as [->| ->]; [done|]. cbn [fst]. symmetry. by apply (lev_in n lt PO R Htwo j).
Qed.
Lemma climb_above a M : a < n -> Climb n lt R a M -> exists x, x < m /\ SamePair M (q x) /\ Above par (leaf a) x.
Proof.
  intros Ha HC. induction HC as [|e k s HC (x & Hx & HS & HA) HL HSt Hs].
  - destruct (leaf_parent a Ha) as (x & Hx & Hp & HS & _). exists x. split_and!; [done|done|]. by apply above_parent.
  - destruct (stop_same k s e (q x) HL HSt HS) as (HL' & HSt' & Hst). pose proof (Hz x Hx) as Kx. destruct (key_of _ _ _ _ Kx HL' HSt') as [[-> _]|(_ & be & b & Hbe & HB & Ez)]; [lia|].
    pose proof (lookup_lt_Some _ _ _ Hbe) as Hbem. pose proof (side_01 s b (q x)). destruct (chain_last x Hx) as (x' & Hx' & E1 & E2); [lia|].
    destruct (Hpos be Hbem) as [Hp1 Hp2]. exists (pos be). split; [done|]. assert (q (pos be) = b) as ->. { pose proof (Hq (pos be) Hp1) as Hxx. rewrite Hp2 in Hxx. congruence. }
    split. { rewrite (B_same n lt s e.1 (q x).1); [done|]. symmetry. apply Hst. apply HSt. }
    assert (Above par x' (pos be)) as HA2. { apply above_parent. rewrite Hpe by lia. rewrite (proj2 (Z.eqb_neq _ _)) by congruence. rewrite E1, Ez, half. done. }
    apply (above_trans _ x); [done|]. destruct (chain_up x x') as [->|HB']; [lia|lia|done|done|]. by apply (above_trans _ x').
Qed.
Lemma end_above i a : i < m -> a = (q i).1 \/ a = (q i).2 -> exists x, x < m /\ Above par (leaf a) x /\ AboveEq i x /\ (w (q x) <= w (q i))%Z.
Proof.
  intros Hi Ha. pose proof (q_pr i Hi) as HP. assert (a < n) as Han by (destruct HP as (? & ? & ?), Ha as [->| ->]; done). pose proof (Hz i Hi) as (j & s & HL & HS & _).
  destruct (climb_edge n lt PO R Htwo j s (q i) a HL HS Ha) as (M & k' & HC & Hle & HLM & HM). destruct (climb_above a M Han HC) as (x & Hx & HSx & HA).
  destruct (h_same M (q x)) as [Ew _]; [by apply (lev_pr n lt PO R Htwo k')|done|].
  destruct HM as [HM|[HSM Hst]].
  - assert (x = i) as ->. { apply pos_unique; [done..|]. apply (same_trans _ M); [by apply same_sym|done]. } exists i. split_and!; [done|done|by left|lia].
  - assert (z x = z i) as Ez.
    { destruct (stop_same k' s M (q x) HLM HSM HSx) as (HLx & HSx' & Hstx). pose proof (Hz x Hx) as Kx. pose proof (Hz i Hi) as Ki.
      destruct (key_of _ _ _ _ Kx HLx HSx') as [[Es ->]|(Hs & be & b & Hbe & HB & ->)], (key_of _ _ _ _ Ki HL HS) as [[Es' ->]|(Hs' & be' & b' & Hbe' & HB' & ->)]; [done|lia|lia|].
      assert (stage s (q x).1 = stage s (q i).1) as Est by (rewrite Hstx; [done|apply HSM]). rewrite (B_same n lt s _ _ Est) in HB.
      assert (be = be') as <-. { apply (HNR _ _ _ _ Hbe Hbe'). apply (same_trans _ (B s (q i).1)); [by apply same_sym|done]. }
      rewrite Hbe in Hbe'. injection Hbe' as <-. unfold side. by rewrite Est. }
    assert (w (q x) <= w (q i))%Z as Hww. { rewrite <- Ew. apply Hw; [by apply (lev_pr n lt PO R Htwo k')|done|done]. }
    destruct (decide (x <= i)) as [L|L].
    + exists i. split_and!; [done| |by left|lia]. by apply (above_eq_trans _ x); [|apply chain_up].
    + exists x. split_and!; [done|done| |done]. apply chain_up; [lia|done|done].
Qed.
(** two ancestors of a node *)
Lemma above_linear x e e' : Above par x e -> Above par x e' -> AboveEq e e' \/ AboveEq e' e.
Proof.
  induction 1 as [x e Hx|x y e Hx HA IH]; intros HB; inversion HB as [x' e2 Hx' E1 E2|x' y' e2 Hx' HB' E1 E2]; subst.
  - rewrite Hx in Hx'. injection Hx' as Hx'. left. left. lia.
  - rewrite Hx in Hx'. injection Hx' as Hx'. assert (y' = e) as -> by lia. left. by right.
  - rewrite Hx in Hx'. injection Hx' as Hx'. assert (y = e') as -> by lia. right. by right.
  - rewrite Hx in Hx'. injection Hx' as Hx'. assert (y' = y) as -> by lia. by apply IH.
Qed.
Lemma above_eq_linear x e e' : AboveEq x e -> AboveEq x e' -> AboveEq e e' \/ AboveEq e' e.
Proof. intros [->|HA] [->|HB]; [left; by left|left; by right|right; by right|]. by apply (above_linear x). Qed.

(** ** The clusters *)
Definition Joined (ok : nat * nat -> Prop) (u v : nat) : Prop := u = v \/ exists e, e < m /\ Above par (leaf u) e /\ Above par (leaf v) e /\ ok (q e).
Section Cut.
Context (ok : nat * nat -> Prop).
Hypothesis Hok : forall p p', Pr p -> Pr p' -> (w p <= w p')%Z -> ok p' -> ok p.
Lemma joined_trans a b c : Joined ok a b -> Joined ok b c -> Joined ok a c.
Proof.
  intros [->|(e & He & A1 & A2 & Ho)]; [done|]. intros [<-|(e' & He' & A1' & A2' & Ho')]; [right; by exists e|]. right.
  destruct (above_linear _ _ _ A2 A1') as [HL|HL]; [exists e'|exists e]; (split; [done|]); split_and!; try done; by eapply above_eq_trans.
Qed.
Lemma joined_sym a b : Joined ok a b -> Joined ok b a.
Proof. intros [->|(e & ? & ? & ? & ?)]; [by left|]. right. by exists e. Qed.
Lemma edge_joined i : i < m -> ok (q i) -> Joined ok (q i).1 (q i).2.
Proof.
  intros Hi Ho. right. destruct (end_above i (q i).1 Hi) as (x & Hx & A1 & A2 & A3); [by left|]. destruct (end_above i (q i).2 Hi) as (y & Hy & B1 & B2 & B3); [by right|].
  pose proof (q_pr i Hi). pose proof (q_pr x Hx). pose proof (q_pr y Hy).
  destruct (above_eq_linear _ _ _ A2 B2) as [HL|HL].
  - exists y. split_and!; [done|by apply (above_eq_trans _ x)|done|by apply (Hok _ (q i))].
  - exists x. split_and!; [done|done|by apply (above_eq_trans _ y)|by apply (Hok _ (q i))].
Qed.
Lemma pair_conn a b : Pr (a, b) -> Conn (fun x y => (x, y) ∈ F /\ lt (a, b) (x, y) = false) a b.
Proof.
  intros (Ha & Hb & Hab). cbn in *. assert (MstProof.Proper n F) as HPF. { intros [x y] He. cbn. by apply HSp. }
  destruct (critical n lt PO F HPF a b) as (f & Hf & Hpath); [by apply HSp|done|].
  assert (HFB : forall x y, Conn (MstProof.Below lt F f) x y -> Conn (fun x y => x < n /\ y < n /\ lt (x, y) f = true) x y).
  { intros x y. apply conn_mono. intros x' y' [Hin Hl]. destruct (HPF _ Hin) as (? & ? & _). done. }
  assert (lt (a, b) f = false) as Hle.
  { destruct (lt (a, b) f) eqn:E; [|done]. exfalso. destruct (HK f Hf) as (_ & _ & _ & Hn). apply Hn.
    destruct Hpath as [[C1 C2]|[C1 C2]]; apply HFB in C1, C2.
    - apply (conn_trans _ _ a); [by apply conn_sym|]. apply (conn_trans _ _ b); [by apply conn_step|]. by apply conn_sym.
    - apply (conn_trans _ _ b); [done|]. apply (conn_trans _ _ a); [by apply conn_rev|]. done. }
  assert (HG : forall x y, Conn (MstProof.Below lt F f) x y -> Conn (fun x y => (x, y) ∈ F /\ lt (a, b) (x, y) = false) x y).
  { intros x y. apply conn_mono. intros x' y' [Hin Hl]. split; [done|]. apply (HdbscanTree.lt_le n lt PO). by apply (HdbscanTree.lt_le_trans n lt PO _ f). }
  assert (Conn (fun x y => (x, y) ∈ F /\ lt (a, b) (x, y) = false) f.1 f.2) as Cf. { apply conn_step. by rewrite <- surjective_pairing. }
  destruct Hpath as [[C1 C2]|[C1 C2]]; apply HG in C1, C2.
  - by apply (conn_trans _ _ f.1); [|apply (conn_trans _ _ f.2)].
  - apply (conn_trans _ _ f.2); [done|]. by apply (conn_trans _ _ f.1); [apply conn_sym|].
Qed.
Lemma clusters u v : u < n -> v < n -> u <> v -> (exists e, e < m /\ Above par (leaf u) e /\ Above par (leaf v) e /\ ok (q e)) <-> Conn (fun a b => Pr (a, b) /\ ok (a, b)) u v.
Proof.
  intros Hu Hv Hne. split.
  - intros (e & He & A1 & A2 & Ho). destruct (above_leaf u e Hu A1) as [_ C1]. destruct (above_leaf v e Hv A2) as [_ C2].
    assert (HM : forall x y, Conn (LeW (w (q e))) x y -> Conn (fun a b => Pr (a, b) /\ ok (a, b)) x y).
    { intros x y. apply conn_mono. intros a b [Hp Hl]. split; [done|]. apply (Hok _ (q e)); [done|by apply q_pr|done|done]. }
    apply (conn_trans _ _ (q e).1); [by apply HM|]. by apply conn_sym, HM.
  - intros HC. assert (Joined ok u v) as [|]; [|done|done]. clear Hu Hv Hne. induction HC as [a b [Hp Ho]|a|a b _ IH|a b c _ IH1 _ IH2]; [|by left|by apply joined_sym|by eapply joined_trans].
    pose proof (pair_conn a b Hp) as HC. assert (HE : forall x y, (x, y) ∈ F /\ lt (a, b) (x, y) = false -> Joined ok x y).
    { intros x y [Hin Hl]. apply elem_of_list_lookup in Hin as (e & He). pose proof (lookup_lt_Some _ _ _ He) as Hem. destruct (Hpos e Hem) as [Hp1 Hp2].
      assert (q (pos e) = (x, y)) as Eq. { pose proof (Hq (pos e) Hp1) as Hxx. rewrite Hp2 in Hxx. congruence. }
      pose proof (edge_joined (pos e) Hp1) as HJ. rewrite Eq in HJ. apply HJ. apply (Hok _ (a, b)); [by apply (F_pr e)|done| |done]. by apply Hw; [apply (F_pr e)|..]. }
    clear Hp Ho. induction HC as [x y Hxy|x|x y _ IH|x y z' _ IH1 _ IH2]; [by apply HE|by left|by apply joined_sym|by eapply joined_trans].
Qed.
End Cut.

(** ** Every edge has two children *)
Definition children (e : nat) : list nat := filter (fun x => par !! x = Some (Z.of_nat e)) (seq 0 (m + n)).
Lemma child_cases e x : e < m -> x ∈ children e ->
  (x < m - 1 /\ e = S x /\ z x = z e) \/
  (x < m - 1 /\ z x <> z (S x) /\ exists j s, Lev j (q x) /\ Stop j s (q x) /\ s < R /\ SamePair (B s (q x).1) (q e) /\ z x = (2 * Z.of_nat (idx e) + side s (q e) (q x))%Z) \/
  (m <= x /\ exists v, v < n /\ leaf v = x /\ SamePair (B 0 v) (q e) /\ (v = (q e).1 \/ v = (q e).2)).
Proof.
  intros He Hx. apply elem_of_list_filter in Hx as [Hp Hx%elem_of_seq]. destruct (decide (x < m)) as [L|L].
  - destruct (decide (x < m - 1)) as [L'|L'].
    + destruct (parent_ok x L') as (i' & Hp' & Hi & _ & _ & HC). rewrite Hp' in Hp. injection Hp as Hp. assert (e = i') as -> by lia.
      destruct HC as [[E1 E2]|(E1 & _ & HC)]; [left; done|right; left; done].
    + assert (x = m - 1) as -> by lia. rewrite Hroot in Hp. injection Hp. lia.
  - right; right. split; [lia|]. destruct (Hleaf x) as (v & Hv & <-); [lia|]. exists v. split; [done|]. split; [done|].
    destruct (leaf_parent v Hv) as (y & Hy & Hp' & HS & Hend). rewrite Hp' in Hp. injection Hp as Hp. by assert (e = y) as -> by lia.
Qed.
(** an edge chosen from both sides comes first in its chain *)
Lemma mutual_start e s : e < m -> s < R -> SamePair (B s (q e).1) (q e) -> SamePair (B s (q e).2) (q e) -> e = 0 \/ z (e - 1) <> z e.
Proof.
  intros He Hs H1 H2. destruct (decide (e = 0)) as [|Hne]; [by left|]. right. intros E.
  (* the first position of the chain *)
  assert (exists i, i <= e /\ z i = z e /\ (i = 0 \/ z (i - 1) <> z i)) as (i & Hi & Ei & Hst).
  { clear -Hsort. induction e as [|e IH]; [exists 0; auto|]. destruct (decide (z e = z (S e))) as [E|E].
    - destruct IH as (i & ? & ? & ?). exists i. split_and!; [lia|congruence|done].
    - exists (S e). split_and!; [lia|done|]. right. by replace (S e - 1) with e by lia. }
  assert (lt (q e) (q i) = false) as L1 by (by apply Hfirst; [lia|..]).
  assert (lt (q i) (q e) = false) as L2.
  { pose proof (Hz i ltac:(lia)) as Ki. pose proof (Hz e He) as Ke. rewrite Ei in Ki. destruct (key_same _ _ _ Ki Ke) as (j & t & j' & HL & HS & HL' & HS' & Est).
    pose proof (q_pr e He) as HP. assert (Lev (S s) (q e)) as HL2. { apply (key_level (idx e)); [by apply Hq|done|]. exists (q e).1. split; [apply HP|done]. }
    assert (j' = S s) as -> by (apply (lev_unique n lt PO R Htwo _ _ (q e) (q e)); [done..|by left]).
    by apply (mutual_first n lt PO R Htwo s (q e) t j (q i)). }
  assert (i = e) as ->. { pose proof (q_pr e He) as (? & ? & ?). pose proof (q_pr i ltac:(lia)) as (? & ? & ?). apply pos_unique; [lia|done|]. by apply (po_total n lt PO). }
  by destruct Hst.
Qed.
Lemma children_two e : e < m -> length (children e) <= 2.
Proof.
  intros He. pose proof (q_pr e He) as HP. pose proof HP as (Q1 & Q2 & Q3). assert (HD : NoDup (children e)) by (apply NoDup_filter, NoDup_seq).
  (* same key and end of the chain: the same child *)
  assert (Hend : forall x y, x < m - 1 -> y < m - 1 -> z x = z y -> z x <> z (S x) -> z y <> z (S y) -> x = y).
  { intros x y Hx Hy E E1 E2. destruct (Nat.lt_trichotomy x y) as [L|[L|L]]; [exfalso|done|exfalso].
    - destruct (Hsort x (S x)) as [|[]]; [lia|lia| |lia]. destruct (Hsort (S x) y) as [|[]]; lia.
    - destruct (Hsort y (S y)) as [|[]]; [lia|lia| |lia]. destruct (Hsort (S y) x) as [|[]]; lia. }
  destruct (Hlev _ _ (Hq e He)) as [j Hj]. destruct (decide (j = 1)) as [->|Hj1].
  - (* first round: no chains below *)
    assert (Hc : forall x, x ∈ children e -> (S x = e /\ z x = z e) \/ (exists v, v < n /\ leaf v = x /\ SamePair (B 0 v) (q e) /\ (v = (q e).1 \/ v = (q e).2))).
    { intros x Hx. destruct (child_cases e x He Hx) as [(H1 & H2 & H3)|[(H1 & H2 & k & s & HL & HS & Hs & HB & _)|(H1 & H2)]]; [left; by rewrite <- H2|exfalso|by right].
      assert (Lev (S s) (q e)) as HL2. { apply (key_level (idx e)); [by apply Hq|done|]. exists (q x).1. split; [apply (q_pr x ltac:(lia))|done]. }
      pose proof (lev_unique n lt PO R Htwo _ _ _ _ Hj HL2 ltac:(by left)). destruct HL as [? _], HS as [? _]. lia. }
    destruct (decide (SamePair (B 0 (q e).1) (q e))) as [S1|S1], (decide (SamePair (B 0 (q e).2) (q e))) as [S2|S2].
    + apply (two_of _ (leaf (q e).1) (leaf (q e).2)); [done|]. intros x Hx. destruct (Hc x Hx) as [[H1 H2]|(v & _ & <- & _ & [->| ->])]; [exfalso|by left|by right].
      destruct (mutual_start e 0 He HR S1 S2) as [|Hn]; [lia|]. apply Hn. by replace (e - 1) with x by lia.
    + apply (two_of _ (leaf (q e).1) (e - 1)); [done|]. intros x Hx. destruct (Hc x Hx) as [[H1 H2]|(v & _ & <- & HS & [->| ->])]; [right; lia|by left|done].
    + apply (two_of _ (leaf (q e).2) (e - 1)); [done|]. intros x Hx. destruct (Hc x Hx) as [[H1 H2]|(v & _ & <- & HS & [->| ->])]; [right; lia|done|by left].
    + apply (two_of _ (e - 1) (e - 1)); [done|]. intros x Hx. destruct (Hc x Hx) as [[H1 H2]|(v & _ & <- & HS & [->| ->])]; [right; lia|done|done].
  - (* later rounds: no vertices below *)
    pose proof Hj as [Hj0 _].
    assert (Hc : forall x, x ∈ children e -> (S x = e /\ z x = z e) \/ (x < m - 1 /\ z x <> z (S x) /\ SamePair (B (j - 1) (q x).1) (q e) /\ z x = (2 * Z.of_nat (idx e) + side (j - 1) (q e) (q x))%Z)).
    { intros x Hx. destruct (child_cases e x He Hx) as [(H1 & H2 & H3)|[(H1 & H2 & k & s & HL & HS & Hs & HB & Ez)|(H1 & v & Hv & _ & HB & _)]]; [left; by rewrite <- H2|right|exfalso].
      - assert (Lev (S s) (q e)) as HL2. { apply (key_level (idx e)); [by apply Hq|done|]. exists (q x).1. split; [apply (q_pr x ltac:(lia))|done]. }
        pose proof (lev_unique n lt PO R Htwo _ _ _ _ Hj HL2 ltac:(by left)). by replace (j - 1) with s by lia.
      - assert (Lev 1 (q e)) as HL2. { apply (key_level (idx e)); [by apply Hq|done|]. by exists v. } pose proof (lev_unique n lt PO R Htwo _ _ _ _ Hj HL2 ltac:(by left)). lia. }
    set (A := fun x => x < m - 1 /\ z x <> z (S x) /\ SamePair (B (j - 1) (q x).1) (q e) /\ z x = (2 * Z.of_nat (idx e) + side (j - 1) (q e) (q x))%Z).
    assert (HA1 : forall x y, A x -> A y -> z x = z y -> x = y) by (intros x y (? & ? & _) (? & ? & _) E; by apply Hend).
    (* at most two chains; with two of them there is no predecessor *)
    destruct (children e) as [|x1 [|x2 [|x3 l]]] eqn:El; [cbn; lia|cbn; lia|cbn; lia|exfalso].
    assert (H1 := Hc x1 ltac:(by left)). assert (H2 := Hc x2 ltac:(by right; left)). assert (H3 := Hc x3 ltac:(by right; right; left)).
    fold (A x1) in H1. fold (A x2) in H2. fold (A x3) in H3.
    assert (x1 <> x2 /\ x1 <> x3 /\ x2 <> x3) as (N12 & N13 & N23).
    { apply NoDup_cons in HD as [D1 HD]. apply NoDup_cons in HD as [D2 HD]. split_and!; intros ->; [apply D1; by left|apply D1; by right; left|apply D2; by left]. }
    assert (Hmut : forall x y, A x -> A y -> x <> y -> e = 0 \/ z (e - 1) <> z e).
    { intros x y HAx HAy Hxy. assert (z x <> z y) as Hzz by (intros E; by apply Hxy, HA1). destruct HAx as (X1 & X2 & X3 & X4), HAy as (Y1 & Y2 & Y3 & Y4).
      pose proof (side_comp (j - 1) (q x) (q e) ltac:(lia) (q_pr x ltac:(lia)) X3) as Cx. pose proof (side_comp (j - 1) (q y) (q e) ltac:(lia) (q_pr y ltac:(lia)) Y3) as Cy.
      pose proof (side_01 (j - 1) (q e) (q x)). pose proof (side_01 (j - 1) (q e) (q y)). apply (mutual_start e (j - 1)); [done|lia| |].
      - destruct (decide (side (j - 1) (q e) (q x) = 1%Z)) as [E|E]; [by rewrite <- (B_same n lt _ _ _ Cx)|]. destruct (decide (side (j - 1) (q e) (q y) = 1%Z)) as [E'|E']; [by rewrite <- (B_same n lt _ _ _ Cy)|]. exfalso. lia.
      - destruct (decide (side (j - 1) (q e) (q x) = 1%Z)) as [E|E]; [|by rewrite <- (B_same n lt _ _ _ Cx)]. destruct (decide (side (j - 1) (q e) (q y) = 1%Z)) as [E'|E']; [|by rewrite <- (B_same n lt _ _ _ Cy)]. exfalso. lia. }
    assert (Hno : forall x y u, A x -> A y -> x <> y -> S u = e /\ z u = z e -> False).
    { intros x y u HAx HAy Hxy [E1 E2]. destruct (Hmut x y HAx HAy Hxy) as [|Hn]; [lia|]. apply Hn. by replace (e - 1) with u by lia. }
    destruct H1 as [H1|H1], H2 as [H2|H2], H3 as [H3|H3]; try (destruct H1, H2; lia); try (destruct H1, H3; lia); try (destruct H2, H3; lia); try (by apply (Hno x2 x3 x1)); try (by apply (Hno x1 x3 x2)); try (by apply (Hno x1 x2 x3)).
    assert (forall x, A x -> z x = (2 * Z.of_nat (idx e))%Z \/ z x = (2 * Z.of_nat (idx e) + 1)%Z) as HZ. { intros x (_ & _ & _ & ->). pose proof (side_01 (j - 1) (q e) (q x)). lia. }
    assert (z x1 <> z x2 /\ z x1 <> z x3 /\ z x2 <> z x3) as (Z1 & Z2 & Z3) by (split_and!; intros E; [by apply N12, HA1|by apply N13, HA1|by apply N23, HA1]).
    destruct (HZ x1 H1), (HZ x2 H2), (HZ x3 H3); lia.
Qed.
End Dendro.
