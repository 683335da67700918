(** Height of the constructed hierarchy (proof file). *)
From Verif Require Import TreeConstructionProof DeltaProof TraversalProof NearestProof.
From Verif Require Export TreeSpec.
Local Open Scope nat_scope.

Lemma HeightLe_mono {V} (T : tree V) i h : HeightLe T i h -> forall h', h <= h' -> HeightLe T i h'.
Proof.
  induction 1 as [i h HL|i h lc rc HL E1 E2 H1 IH1 H2 IH2]; intros h' Hh; [by constructor|].
  destruct h' as [|h']; [lia|]. apply (hl_node T i h' lc rc HL E1 E2); [apply IH1|apply IH2]; lia.
Qed.

Lemma height_levels {V} (le : V -> V -> Prop) vol perm T (f : nat -> nat) :
  ValidTree le vol perm T ->
  (forall i l sp r rp c1 c2 rp1 rp2, Covers T i l r rp -> getLeftChild T i = Some c1 -> Covers T c1 l sp rp1 ->
     Covers T c2 (S sp) r rp2 -> l < r -> forall k, l <= k < r -> k <> sp -> f k < f sp) ->
  forall d i l r rp B, r - l < d -> Covers T i l r rp -> (forall k, l <= k < r -> f k < B) -> HeightLe T i B.
Proof.
  intros VT Hf. induction d as [|d IH]; intros i l r rp B Hd HC HB; [lia|].
  destruct (isLeaf T i) eqn:HL; [by constructor|].
  destruct (node_case le vol perm T VT i l r rp HC HL) as (s & c1 & c2 & v & Hs & E1 & E2 & _ & _ & _ & C1 & C2).
  pose proof (Hf i l s r rp c1 c2 _ _ HC E1 C1 C2 ltac:(lia)) as Hk. pose proof (HB s ltac:(lia)).
  apply (HeightLe_mono T i (S (f s))); [|lia]. apply (hl_node T i (f s) c1 c2 HL E1 E2).
  - apply (IH c1 l s _ (f s) ltac:(lia) C1). intros k Hk'. apply Hk; lia.
  - apply (IH c2 (S s) r _ (f s) ltac:(lia) C2). intros k Hk'. apply Hk; lia.
Qed.

Lemma construction_height {V} (le : V -> V -> Prop) join bot vol perm w codes m :
  JoinSemi le join bot -> (2 <= w)%Z -> 0 < m -> length codes = S m -> length perm = S m ->
  (Z.of_nat m < 2 ^ (w - 1))%Z -> SortedCodes w codes ->
  forall ts s T, exec join bot vol perm m (delta_code w codes m) (init_state m) ts s -> all_done s -> tree_of m s = Some T ->
  forall b lo, (0 <= b)%Z -> (Z.of_nat m < 2 ^ b)%Z -> (0 <= lo <= b + (w - 1))%Z ->
    (forall k, k < m -> (lo <= lev codes b k)%Z) -> HeightLe T (getRoot T) (Z.to_nat (b + (w - 1) - lo)).
Proof.
  intros JS Hw Hm Hc Hp Hmax [Hs Hr] ts s T He HD HT b lo Hb Hmb Hlo Hlev.
  pose proof (delta_good w codes m Hw Hc Hmax Hs Hr) as GD.
  destruct (construction_valid le join bot JS vol perm m Hm ltac:(lia) _ GD ts s He HD) as (T' & HT' & VT).
  rewrite HT in HT'. injection HT' as <-.
  pose proof (construction_split le join bot JS vol perm m Hm ltac:(lia) _ GD ts s T He HD HT) as HS.
  apply (height_levels le vol perm T (fun k => Z.to_nat (lev codes b k - lo)) VT) with (d := length perm) (l := 0) (r := length perm - 1) (rp := None).
  - intros i l sp r rp c1 c2 rp1 rp2 C E1 C1 C2 Hlr k Hk Hne.
    pose proof (Covers_range le vol perm T VT _ _ _ _ C). pose proof (Covers_range le vol perm T VT _ _ _ _ C1). pose proof (Covers_range le vol perm T VT _ _ _ _ C2).
    pose proof (lev_step w codes m Hw Hc Hmax Hs Hr b l r sp k Hb Hmb ltac:(lia) (HS i l sp r rp c1 c2 rp1 rp2 C E1 C1 C2 Hlr) ltac:(lia) ltac:(lia) Hne).
    pose proof (Hlev k ltac:(lia)). lia.
  - lia.
  - apply VT.
  - intros k Hk. pose proof (lev_bounds w codes m Hw Hc Hmax Hs Hr b k Hb Hmb ltac:(lia)). pose proof (Hlev k ltac:(lia)). lia.
Qed.

Lemma distinct_lev codes m b : length codes = S m -> NoDup codes -> (0 <= b)%Z -> forall k, k < m -> (b <= lev codes b k)%Z.
Proof.
  intros Hc ND Hb k Hk. unfold lev. destruct (Z.eq_dec (x codes k) 0) as [E|E].
  - exfalso. unfold x in E. apply Z.lxor_eq in E. unfold c in E.
    destruct (lookup_lt_is_Some_2 codes k) as [a Ha]; [lia|]. destruct (lookup_lt_is_Some_2 codes (S k)) as [a' Ha']; [lia|].
    rewrite Ha, Ha' in E. simpl in E. subst a'. pose proof (NoDup_lookup _ _ _ _ ND Ha Ha'). lia.
  - pose proof (Z.log2_nonneg (x codes k)). lia.
Qed.
