(** The code's delta function separates all ties when codes leave the top bit clear (proof file). *)
From Verif Require Export TreeSpec.
Local Open Scope Z_scope.

Lemma lxor_1 q : Z.lxor q 1 = q + 1 - 2 * (q mod 2).
Proof.
  assert (forall h, Z.lxor (2 * h) 1 = 2 * h + 1) as He.
  { intros h. symmetry. apply Z.add_nocarry_lxor. apply Z.bits_inj'. intros n Hn.
    rewrite Z.land_spec, Z.bits_0. destruct (Z.eq_dec n 0) as [->|].
    - by rewrite Z.testbit_even_0.
    - replace (Z.testbit 1 n) with false; [apply andb_false_r|].
      symmetry. change 1 with (2 ^ 0). apply Z.pow2_bits_false. lia. }
  pose proof (Z.div_mod q 2 ltac:(lia)) as Hq. pose proof (Z.mod_pos_bound q 2 ltac:(lia)).
  assert (q mod 2 = 0 \/ q mod 2 = 1) as [E|E] by lia.
  - rewrite E in *. rewrite Hq at 1. rewrite Z.add_0_r, He. lia.
  - rewrite E in *. rewrite Hq at 1. rewrite <- He, Z.lxor_assoc. rewrite Z.lxor_nilpotent, Z.lxor_0_r. lia.
Qed.

Lemma lxor_eq_1 q q' : Z.lxor q q' = 1 -> q <= q' -> q' = q + 1 /\ q mod 2 = 0.
Proof.
  intros E Hle. assert (q' = Z.lxor q 1) as Hq'.
  { rewrite <- E, <- Z.lxor_assoc, Z.lxor_nilpotent. by rewrite Z.lxor_0_l. }
  rewrite lxor_1 in Hq'. pose proof (Z.mod_pos_bound q 2 ltac:(lia)). lia.
Qed.

Lemma shiftr_mono a b n : 0 <= n -> a <= b -> Z.shiftr a n <= Z.shiftr b n.
Proof. intros Hn H. rewrite !Z.shiftr_div_pow2 by done. apply Z.div_le_mono; [|done]. apply Z.pow_pos_nonneg; lia. Qed.

Lemma lxor_nonneg' a b : 0 <= a -> 0 <= b -> 0 <= Z.lxor a b.
Proof. intros. apply Z.lxor_nonneg. tauto. Qed.

Lemma step_exists (h : nat -> Z) i j : (i <= j)%nat -> h i < h j -> exists k, (i <= k < j)%nat /\ h k <> h (S k).
Proof.
  intros Hij. induction j as [|j IH]; intros Hlt; [assert (i = 0)%nat as -> by lia; lia|].
  destruct (decide (i = S j)) as [->|]; [lia|].
  destruct (Z.eq_dec (h j) (h (S j))) as [E|E].
  - destruct IH as (k & Hk & ?); [lia|lia|]. exists k. split; [lia|done].
  - exists j. split; [lia|done].
Qed.

(** Two increases across the same bit are separated by an increase across a higher bit. *)
Lemma xor_tie_log (c : nat -> Z) (i j : nat) :
  (i < j)%nat -> (forall a, (i <= a)%nat -> 0 <= c a) -> (forall a, (i <= a <= j)%nat -> c a <= c (S a)) ->
  Z.log2 (Z.lxor (c i) (c (S i))) = Z.log2 (Z.lxor (c j) (c (S j))) ->
  Z.lxor (c i) (c (S i)) <> 0 -> Z.lxor (c j) (c (S j)) <> 0 ->
  exists k, (i < k < j)%nat /\ 2 ^ (Z.log2 (Z.lxor (c i) (c (S i))) + 1) <= Z.lxor (c k) (c (S k)).
Proof.
  intros Hij Hpos Hmono Heq Hnz Hnz'.
  assert (forall a, (i <= a <= j)%nat -> Z.lxor (c a) (c (S a)) <> 0 ->
    let b := Z.log2 (Z.lxor (c a) (c (S a))) in Z.shiftr (c (S a)) b = Z.shiftr (c a) b + 1 /\ Z.shiftr (c a) b mod 2 = 0) as Hstep.
  { intros a Ha Hza b. set (x := Z.lxor (c a) (c (S a))) in *.
    assert (0 < x) as Hx. { pose proof (lxor_nonneg' (c a) (c (S a)) (Hpos a ltac:(lia)) (Hpos (S a) ltac:(lia))). unfold x in *. lia. }
    pose proof (Z.log2_nonneg x) as Hb. fold b in Hb. pose proof (Z.log2_spec x Hx) as Hlog. fold b in Hlog.
    assert (Z.shiftr x b = 1) as H1.
    { rewrite Z.shiftr_div_pow2 by done. rewrite Z.pow_succ_r in Hlog by done.
      symmetry. apply (Z.div_unique x (2 ^ b) 1 (x - 2 ^ b)); [left|]; lia. }
    unfold x in H1. rewrite Z.shiftr_lxor in H1.
    apply lxor_eq_1 in H1; [done|]. apply shiftr_mono; [done|apply Hmono; lia]. }
  destruct (Hstep i ltac:(lia) Hnz) as [Hi1 Hi2]. destruct (Hstep j ltac:(lia) Hnz') as [Hj1 Hj2]. rewrite <- Heq in Hj1, Hj2.
  set (x := Z.lxor (c i) (c (S i))) in *. set (b := Z.log2 x) in *. pose proof (Z.log2_nonneg x) as Hb. fold b in Hb. clear Hstep.
  assert (forall a d, (i <= a)%nat -> (a + d <= S j)%nat -> c a <= c (a + d)%nat) as Hm.
  { intros a d Ha. induction d as [|d IH]; intros Hd; [rewrite Nat.add_0_r; lia|].
    rewrite Nat.add_succ_r. pose proof (Hmono (a + d)%nat ltac:(lia)). specialize (IH ltac:(lia)). lia. }
  pose proof (shiftr_mono _ _ b Hb (Hm (S i) (j - S i)%nat ltac:(lia) ltac:(lia))) as Hij'.
  replace (S i + (j - S i))%nat with j in Hij' by lia.
  set (h := fun a => Z.shiftr (c a) (b + 1)).
  assert (forall a, h a = Z.shiftr (c a) b / 2) as Hh.
  { intros a. unfold h. rewrite <- Z.shiftr_shiftr by lia. rewrite (Z.shiftr_div_pow2 _ 1) by lia. done. }
  assert (h (S i) < h j) as Hlt. { rewrite !Hh. clear -Hi1 Hi2 Hj1 Hj2 Hij'. lia. }
  destruct (step_exists h (S i) j ltac:(lia) Hlt) as (k & Hk & Hne).
  exists k. split; [lia|].
  assert (Z.lxor (h k) (h (S k)) <> 0) as Hz. { intros E. apply Hne. by apply Z.lxor_eq. }
  unfold h in Hz. rewrite <- Z.shiftr_lxor in Hz.
  pose proof (lxor_nonneg' (c k) (c (S k)) (Hpos k ltac:(lia)) (Hpos (S k) ltac:(lia))) as Hnn.
  destruct (Z.lt_ge_cases (Z.lxor (c k) (c (S k))) (2 ^ (b + 1))) as [Hl|Hl]; [|done].
  exfalso. apply Hz. rewrite Z.shiftr_div_pow2 by lia. apply Z.div_small. lia.
Qed.

Lemma xor_tie (c : nat -> Z) (i j : nat) :
  (i < j)%nat -> (forall a, (i <= a)%nat -> 0 <= c a) -> (forall a, (i <= a <= j)%nat -> c a <= c (S a)) ->
  Z.lxor (c i) (c (S i)) = Z.lxor (c j) (c (S j)) -> Z.lxor (c i) (c (S i)) <> 0 ->
  exists k, (i < k < j)%nat /\ Z.lxor (c i) (c (S i)) < Z.lxor (c k) (c (S k)).
Proof.
  intros Hij Hpos Hmono Heq Hnz. destruct (xor_tie_log c i j Hij Hpos Hmono ltac:(by rewrite Heq) Hnz ltac:(by rewrite <- Heq)) as (k & Hk & Hle).
  exists k. split; [done|]. eapply Z.lt_le_trans; [|exact Hle].
  pose proof (lxor_nonneg' (c i) (c (S i)) (Hpos i ltac:(lia)) (Hpos (S i) ltac:(lia))).
  apply Z.log2_spec. lia.
Qed.

Lemma succ_xor_bound i w : 0 <= i -> 0 <= w -> i + 1 < 2 ^ w -> Z.lxor i (i + 1) < 2 ^ w.
Proof.
  intros Hi Hw Hlt. pose proof (lxor_nonneg' i (i + 1) ltac:(lia) ltac:(lia)).
  destruct (Z.eq_dec (Z.lxor i (i + 1)) 0) as [E|E]; [rewrite E; apply Z.pow_pos_nonneg; lia|].
  apply Z.log2_lt_pow2; [lia|].
  pose proof (Z.log2_lxor i (i + 1) ltac:(lia) ltac:(lia)) as Hl.
  destruct (Z.eq_dec i 0) as [->|].
  - simpl in *. assert (0 < w); [|lia]. destruct (Z.eq_dec w 0) as [->|]; [simpl in Hlt; lia|lia].
  - assert (Z.log2 i < w) by (apply Z.log2_lt_pow2; lia). assert (Z.log2 (i + 1) < w) by (apply Z.log2_lt_pow2; lia). lia.
Qed.

Lemma to_signed_id w x : 1 <= w -> - 2 ^ (w - 1) <= x < 2 ^ (w - 1) -> to_signed w x = x.
Proof.
  intros Hw Hx. unfold to_signed. assert (2 ^ w = 2 * 2 ^ (w - 1)) as E.
  { rewrite <- Z.pow_succ_r by lia. f_equal. lia. }
  destruct (Z.lt_ge_cases x 0).
  - replace (x mod 2 ^ w) with (x + 2 ^ w).
    + destruct (Z.ltb_spec (x + 2 ^ w) (2 ^ (w - 1))); lia.
    + symmetry. rewrite <- (Z.mod_add x 1) by lia. rewrite Z.mul_1_l. apply Z.mod_small. lia.
  - rewrite Z.mod_small by lia. destruct (Z.ltb_spec x (2 ^ (w - 1))); lia.
Qed.

Section Delta.
Variables (w : Z) (codes : list Z) (m : nat).
Hypothesis Hw : 2 <= w.
Hypothesis Hlen : length codes = S m.
Hypothesis Hm : Z.of_nat m < 2 ^ (w - 1).
Hypothesis Hsorted : forall i a b, codes !! i = Some a -> codes !! S i = Some b -> a <= b.
Hypothesis Hrange : forall i a, codes !! i = Some a -> 0 <= a < 2 ^ (w - 1).

Definition c (i : nat) : Z := default 0 (codes !! i).
Definition x (i : nat) := Z.lxor (c i) (c (S i)).

Lemma c_range i : 0 <= c i < 2 ^ (w - 1).
Proof.
  unfold c. destruct (codes !! i) as [a|] eqn:E; simpl; [by eapply Hrange|].
  split; [lia|]. apply Z.pow_pos_nonneg; lia.
Qed.
Lemma x_range i : 0 <= x i < 2 ^ (w - 1).
Proof.
  pose proof (c_range i) as A. pose proof (c_range (S i)) as B. unfold x.
  pose proof (lxor_nonneg' (c i) (c (S i)) ltac:(lia) ltac:(lia)). split; [done|].
  destruct (Z.eq_dec (Z.lxor (c i) (c (S i))) 0) as [->|]; [lia|]. apply Z.log2_lt_pow2; [lia|].
  pose proof (Z.log2_lxor (c i) (c (S i)) ltac:(lia) ltac:(lia)) as Hl.
  assert (forall y, 0 <= y < 2 ^ (w - 1) -> Z.log2 y < w - 1) as Hy.
  { intros y Hy. destruct (Z.eq_dec y 0) as [->|]; [simpl; lia|]. apply Z.log2_lt_pow2; lia. }
  pose proof (Hy _ A). pose proof (Hy _ B). lia.
Qed.

Definition idup (i : nat) := Z.lxor (Z.of_nat i) (Z.of_nat (S i)).
Lemma idup_range i : (i < m)%nat -> 0 < idup i < 2 ^ (w - 1).
Proof.
  intros Hi. unfold idup. pose proof (lxor_nonneg' (Z.of_nat i) (Z.of_nat (S i)) ltac:(lia) ltac:(lia)).
  split.
  - destruct (Z.eq_dec (Z.lxor (Z.of_nat i) (Z.of_nat (S i))) 0) as [E|]; [|lia]. apply Z.lxor_eq in E. lia.
  - replace (Z.of_nat (S i)) with (Z.of_nat i + 1) by lia. apply succ_xor_bound; lia.
Qed.

Lemma delta_in i : (i < m)%nat -> delta_code w codes m (Z.of_nat i) =
  if Z.eq_dec (x i) 0 then - 2 ^ (w - 1) + idup i - 1 else x i - 1.
Proof.
  intros Hi. unfold delta_code. destruct (Z.ltb_spec (Z.of_nat i) 0); [lia|].
  rewrite Z.geb_leb. destruct (Z.leb_spec (Z.of_nat m) (Z.of_nat i)); [lia|]. cbn [orb].
  rewrite Nat2Z.id. fold (c i). fold (c (S i)). fold (x i).
  pose proof (x_range i). pose proof (idup_range i Hi). replace (Z.of_nat i + 1) with (Z.of_nat (S i)) by lia. fold (idup i).
  destruct (Z.eq_dec (x i) 0) as [E|E].
  - rewrite E. simpl (0 =? 0). cbv iota. rewrite to_signed_id; lia.
  - destruct (Z.eqb_spec (x i) 0); [done|]. rewrite to_signed_id; lia.
Qed.

Lemma delta_out j : j = -1 \/ j = Z.of_nat m -> delta_code w codes m j = 2 ^ (w - 1) - 1.
Proof.
  intros Hj. unfold delta_code. rewrite Z.geb_leb.
  destruct (Z.ltb_spec j 0); [done|]. destruct (Z.leb_spec (Z.of_nat m) j); [done|]. lia.
Qed.

Lemma delta_good : GoodDelta m (delta_code w codes m).
Proof.
  constructor.
  - intros i j Hi Hj. rewrite (delta_out j Hj). replace i with (Z.of_nat (Z.to_nat i)) by lia.
    rewrite delta_in by lia. pose proof (x_range (Z.to_nat i)). pose proof (idup_range (Z.to_nat i) ltac:(lia)).
    destruct (Z.eq_dec _ 0); lia.
  - rewrite !delta_out by auto. lia.
  - intros i' j' Hij Hj. replace i' with (Z.of_nat (Z.to_nat i')) by lia. replace j' with (Z.of_nat (Z.to_nat j')) by lia.
    remember (Z.to_nat i') as i. remember (Z.to_nat j') as j.
    assert (i < j < m)%nat as Hij' by lia. clear Heqi Heqj Hij Hj i' j'.
    rewrite !delta_in by lia.
    pose proof (x_range i). pose proof (idup_range i ltac:(lia)). pose proof (x_range j). pose proof (idup_range j ltac:(lia)).
    assert (forall k, (k < m)%nat -> c k <= c (S k)) as Hmono.
    { intros k Hk. unfold c. destruct (lookup_lt_is_Some_2 codes k) as [a Ha]; [lia|].
      destruct (lookup_lt_is_Some_2 codes (S k)) as [a' Ha']; [lia|]. rewrite Ha, Ha'. simpl. by eapply Hsorted. }
    destruct (Z.eq_dec (x i) 0) as [Ei|Ei], (Z.eq_dec (x j) 0) as [Ej|Ej]; intros Heq; [|lia|lia|].
    + (* duplicates: compare indices *)
      destruct (xor_tie Z.of_nat i j) as (k & Hk & Hlt); [lia|intros; lia|intros; lia|fold (idup i) (idup j); lia|fold (idup i); lia|].
      fold (idup i) (idup k) in Hlt.
      exists (Z.of_nat k). split; [lia|]. rewrite delta_in by lia. pose proof (x_range k).
      destruct (Z.eq_dec (x k) 0); lia.
    + destruct (xor_tie c i j) as (k & Hk & Hlt); [lia|intros; apply c_range|intros; apply Hmono; lia|fold (x i) (x j); lia|done|].
      fold (x i) (x k) in Hlt. exists (Z.of_nat k). split; [lia|]. rewrite delta_in by lia.
      pose proof (x_range k). destruct (Z.eq_dec (x k) 0); lia.
Qed.

(** Levels: along every path to a leaf they strictly decrease. *)
Definition lev (b : Z) (k : nat) : Z := if Z.eq_dec (x k) 0 then Z.log2 (idup k) else b + Z.log2 (x k).

Lemma lev_step b l r s k : 0 <= b -> Z.of_nat m < 2 ^ b -> (r <= m)%nat ->
  (forall k, (l <= k < r)%nat -> k <> s -> delta_code w codes m (Z.of_nat k) < delta_code w codes m (Z.of_nat s)) ->
  (l <= s < r)%nat -> (l <= k < r)%nat -> k <> s -> lev b k < lev b s.
Proof.
  intros Hb Hmb Hr Hmax Hs Hk Hne.
  assert (forall k, (k < m)%nat -> c k <= c (S k)) as Hmono.
  { intros j Hj. unfold c. destruct (lookup_lt_is_Some_2 codes j) as [a Ha]; [lia|].
    destruct (lookup_lt_is_Some_2 codes (S j)) as [a' Ha']; [lia|]. rewrite Ha, Ha'. simpl. by eapply Hsorted. }
  assert (forall j, (l <= j < r)%nat -> j <> s -> x s <> 0 -> x j < x s) as Hx.
  { intros j Hj Hjs Hxs. pose proof (Hmax j Hj Hjs) as H. rewrite !delta_in in H by lia.
    destruct (Z.eq_dec (x s) 0); [done|]. pose proof (x_range s). destruct (Z.eq_dec (x j) 0); lia. }
  assert (forall j, (l <= j < r)%nat -> j <> s -> x s = 0 -> x j = 0 /\ idup j < idup s) as Hi.
  { intros j Hj Hjs Hxs. pose proof (Hmax j Hj Hjs) as H. rewrite !delta_in in H by lia.
    destruct (Z.eq_dec (x s) 0); [|done]. pose proof (x_range j). pose proof (idup_range s ltac:(lia)).
    destruct (Z.eq_dec (x j) 0); [split; [done|lia]|lia]. }
  unfold lev. destruct (Z.eq_dec (x s) 0) as [Es|Es].
  - destruct (Hi k Hk Hne Es) as [Ek Hlt]. destruct (Z.eq_dec (x k) 0); [|done].
    pose proof (idup_range k ltac:(lia)). pose proof (idup_range s ltac:(lia)).
    pose proof (Z.log2_le_mono (idup k) (idup s) ltac:(lia)).
    destruct (Z.eq_dec (Z.log2 (idup k)) (Z.log2 (idup s))) as [E|]; [|lia]. exfalso.
    pose proof (Z.log2_spec (idup s) ltac:(lia)) as [_ Hsp]. pose proof (Z.log2_spec (idup k) ltac:(lia)) as [_ Hkp].
    destruct (Nat.lt_total k s) as [Hks|[->|Hks]]; [|done|].
    + destruct (xor_tie_log Z.of_nat k s) as (j & Hj & Hle); [done|intros; lia|intros; lia|exact E|fold (idup k); lia|fold (idup s); lia|].
      fold (idup k) (idup j) in Hle. destruct (Hi j ltac:(lia) ltac:(lia) Es) as [_ Hji]. rewrite E in Hle. unfold Z.succ in Hsp. lia.
    + destruct (xor_tie_log Z.of_nat s k) as (j & Hj & Hle); [done|intros; lia|intros; lia|by symmetry|fold (idup s); lia|fold (idup k); lia|].
      fold (idup s) (idup j) in Hle. destruct (Hi j ltac:(lia) ltac:(lia) Es) as [_ Hji]. unfold Z.succ in Hsp. lia.
  - pose proof (Hx k Hk Hne Es) as Hlt. pose proof (x_range s). pose proof (x_range k).
    destruct (Z.eq_dec (x k) 0) as [Ek|Ek].
    + assert (Z.log2 (idup k) < b).
      { pose proof (idup_range k ltac:(lia)). apply Z.log2_lt_pow2; [lia|]. unfold idup.
        replace (Z.of_nat (S k)) with (Z.of_nat k + 1) by lia. apply succ_xor_bound; lia. }
      pose proof (Z.log2_nonneg (x s)). lia.
    + pose proof (Z.log2_le_mono (x k) (x s) ltac:(lia)).
      destruct (Z.eq_dec (Z.log2 (x k)) (Z.log2 (x s))) as [E|]; [|lia]. exfalso.
      pose proof (Z.log2_spec (x s) ltac:(lia)) as [_ Hsp].
      destruct (Nat.lt_total k s) as [Hks|[->|Hks]]; [|done|].
      * destruct (xor_tie_log c k s) as (j & Hj & Hle); [done|intros; apply c_range|intros; apply Hmono; lia|exact E|done|done|].
        fold (x k) (x j) in Hle. pose proof (Hx j ltac:(lia) ltac:(lia) Es). rewrite E in Hle. unfold Z.succ in Hsp. lia.
      * destruct (xor_tie_log c s k) as (j & Hj & Hle); [done|intros; apply c_range|intros; apply Hmono; lia|by symmetry|done|done|].
        fold (x s) (x j) in Hle. pose proof (Hx j ltac:(lia) ltac:(lia) Es). unfold Z.succ in Hsp. lia.
Qed.

Lemma lev_bounds b k : 0 <= b -> Z.of_nat m < 2 ^ b -> (k < m)%nat -> 0 <= lev b k < b + (w - 1).
Proof.
  intros Hb Hmb Hk. unfold lev. pose proof (x_range k). pose proof (idup_range k Hk). destruct (Z.eq_dec (x k) 0).
  - split; [apply Z.log2_nonneg|]. assert (Z.log2 (idup k) < b); [|lia].
    apply Z.log2_lt_pow2; [lia|]. unfold idup. replace (Z.of_nat (S k)) with (Z.of_nat k + 1) by lia. apply succ_xor_bound; lia.
  - pose proof (Z.log2_nonneg (x k)). split; [lia|]. assert (Z.log2 (x k) < w - 1); [|lia]. apply Z.log2_lt_pow2; lia.
Qed.
End Delta.
