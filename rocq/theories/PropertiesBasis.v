(** The polynomial basis lists every monomial up to the degree exactly once. *)
From Coq Require Import ZArith QArith Sorting.Sorted.
From Verif Require Import Base GeomOps InterpModel.
Local Open Scope nat_scope.

(** ** Specification: a monomial is a non-decreasing list of coordinate numbers, x0*x0*x2 being [0; 0; 2]. *)
Definition Monomial (DIM Degree : nat) (w : list nat) : Prop :=
  Sorted le w ∧ Forall (fun d => d < DIM) w ∧ length w <= Degree.
Definition monomial_value {T} (O : Ops T) (p : list T) (w : list nat) : T :=
  foldl (fun v d => o_mul O v (default (o_zero O) (p !! d))) (o_one O) w.
(** n choose k *)
Fixpoint choose (n k : nat) : nat :=
  match k, n with
  | 0, _ => 1
  | S k, 0 => 0
  | S k, S n => choose n k + choose n (S k)
  end.

(** ** Binomial coefficients *)
Lemma choose_0 n : choose n 0 = 1. Proof. by destruct n. Qed.
Lemma choose_S n k : choose (S n) (S k) = choose n k + choose n (S k). Proof. done. Qed.
Lemma choose_small n k : n < k -> choose n k = 0.
Proof. revert k. induction n as [|n IH]; intros [|k] H; try lia; [done|]. rewrite choose_S, !IH by lia. done. Qed.
Lemma choose_n n : choose n n = 1.
Proof. induction n as [|n IH]; [done|]. rewrite choose_S, IH, choose_small by lia. lia. Qed.
Lemma choose_absorb n k : (n - k) * choose n k = (k + 1) * choose n (k + 1).
Proof.
  revert k. induction n as [|n IH]; intros k.
  - destruct k; cbn; [done|]. rewrite Nat.add_1_r. cbn. lia.
  - destruct k as [|k].
    + rewrite choose_0. change (0 + 1) with 1. rewrite choose_S, choose_0. specialize (IH 0).
      rewrite choose_0 in IH. change (0 + 1) with 1 in IH. lia.
    + pose proof (IH k) as H1. pose proof (IH (S k)) as H2.
      replace (k + 1) with (S k) in * by lia. replace (S k + 1) with (S (S k)) in * by lia.
      rewrite !choose_S.
      destruct (Nat.le_gt_cases (S k) n) as [Hk|Hk].
      * replace (S n - S k) with (n - k) by lia. replace (n - k) with (S (n - S k)) in * by lia. lia.
      * destruct (Nat.le_gt_cases n k) as [Hk'|Hk']; [|lia].
        replace (S n - S k) with 0 by lia.
        rewrite (choose_small n (S k)), (choose_small n (S (S k))) by lia. lia.
Qed.
Lemma choose_sym a b : choose (a + b) a = choose (a + b) b.
Proof.
  revert b. induction a as [|a IH]; intros b.
  - cbn [plus]. by rewrite choose_0, choose_n.
  - induction b as [|b IHb].
    + rewrite Nat.add_0_r. by rewrite choose_n, choose_0.
    + replace (S a + S b) with (S (a + S b)) by lia. rewrite !choose_S, IH.
      replace (a + S b) with (S a + b) by lia. rewrite IHb. lia.
Qed.

Lemma basis_size_loop_ok N k steps : basis_size_loop N k steps (choose N k) = choose N (k + steps).
Proof.
  revert k. induction steps as [|steps IH]; intros k; cbn [basis_size_loop].
  - by rewrite Nat.add_0_r.
  - replace (choose N k * (N - k) / (k + 1)) with (choose N (S k)).
    + rewrite IH. f_equal. lia.
    + rewrite (Nat.mul_comm (choose N k)), choose_absorb, Nat.mul_comm, Nat.div_mul by lia. f_equal. lia.
Qed.
Lemma basis_size_choose DIM Degree : basis_size DIM Degree = choose (DIM + Degree) DIM.
Proof.
  unfold basis_size. change 1 with (choose 0 0). rewrite choose_0, <- (choose_0 (DIM + Degree)), basis_size_loop_ok.
  cbn [plus]. destruct (Nat.le_gt_cases DIM Degree); [by rewrite Nat.min_l by lia|].
  rewrite Nat.min_r by lia. by rewrite <- choose_sym.
Qed.

(** ** The slice table *)
Definition slice (deg dim : nat) : nat := choose (deg + dim) dim.
Lemma slice_row_from_ok deg d m :
  slice_row_from (slice (S deg) d) (slice deg <$> seq (S d) m) = slice (S deg) <$> seq (S d) m.
Proof.
  revert d. induction m as [|m IH]; intros d; [done|]. cbn [seq fmap list_fmap slice_row_from].
  assert (H : slice deg (S d) + slice (S deg) d = slice (S deg) (S d)).
  { unfold slice. replace (S deg + S d) with (S (deg + S d)) by lia. rewrite choose_S.
    replace (S deg + d) with (deg + S d) by lia. lia. }
  rewrite H. f_equal. apply (IH (S d)).
Qed.
Lemma slice_rows_ok DIM deg n :
  slice_rows (slice deg <$> seq 0 DIM) n = (fun g => slice g <$> seq 0 DIM) <$> seq deg n.
Proof.
  revert deg. induction n as [|n IH]; intros deg; [done|]. cbn [slice_rows seq fmap list_fmap]. f_equal.
  rewrite <- IH. f_equal. destruct DIM as [|m]; [done|]. cbn [seq fmap list_fmap slice_next_row].
  unfold slice at 2. rewrite choose_0. f_equal.
  rewrite <- (slice_row_from_ok deg 0 m). f_equal. 
Qed.
Lemma slice_lengths_ok DIM Degree : slice_lengths DIM Degree = (fun g => slice g <$> seq 0 DIM) <$> seq 0 Degree.
Proof.
  unfold slice_lengths. rewrite <- slice_rows_ok. f_equal. symmetry.
  apply list_eq. intros i. rewrite list_lookup_fmap.
  destruct (decide (i < DIM)) as [Hi|Hi].
  - rewrite lookup_seq_lt, lookup_replicate_2 by lia. cbn. f_equal. unfold slice. cbn. by rewrite choose_n.
  - rewrite lookup_seq_ge by lia. symmetry. apply lookup_replicate_None. lia.
Qed.

Lemma join_app {A} (l k : list (list A)) : mjoin (l ++ k) = mjoin l ++ mjoin k.
Proof. induction l as [|a l IH]; [done|]. cbn [app mjoin list_join]. rewrite <- app_assoc. f_equal. exact IH. Qed.

(** ** The words, in the order of the array *)
(** [ending g u]: the words of g+1 letters ending with u; [upto g u]: the words of g letters with no letter after u. *)
Fixpoint upto (g u : nat) : list (list nat) :=
  match g with
  | 0 => [[]]
  | S g => mjoin ((fun v => (fun w => w ++ [v]) <$> upto g v) <$> seq 0 (S u))
  end.
Definition ending (g u : nat) : list (list nat) := (fun w => w ++ [u]) <$> upto g u.
Lemma upto_S g u : upto (S g) u = mjoin (ending g <$> seq 0 (S u)). Proof. done. Qed.
Lemma upto_SS g u : upto (S g) (S u) = upto (S g) u ++ ending g (S u).
Proof. rewrite !upto_S, (seq_S (S u)), fmap_app, join_app. cbn. by rewrite app_nil_r. Qed.
Lemma upto_length g u : length (upto g u) = slice g u.
Proof.
  revert u. induction g as [|g IH]; intros u.
  - unfold slice. cbn. by rewrite choose_n.
  - induction u as [|u IHu].
    + rewrite upto_S. cbn. rewrite app_nil_r. unfold ending. rewrite fmap_length, IH. unfold slice. by rewrite !choose_0.
    + rewrite upto_SS, app_length, IHu. unfold ending. rewrite fmap_length, IH. unfold slice.
      replace (S g + S u) with (S (g + S u)) by lia. rewrite choose_S. replace (S g + u) with (g + S u) by lia. done.
Qed.
Lemma upto_mono g u v : u <= v -> exists l, upto g v = upto g u ++ l.
Proof.
  intros H. destruct g as [|g]; [by exists []|]. induction H as [|v H [l IH]]; [exists []; by rewrite app_nil_r|].
  exists (l ++ ending g (S v)). by rewrite upto_SS, IH, app_assoc.
Qed.

Lemma upto_spec g u w : w ∈ upto g u <-> Sorted le w ∧ Forall (fun d => d <= u) w ∧ length w = g.
Proof.
  revert u w. induction g as [|g IH]; intros u w.
  - cbn. rewrite elem_of_list_singleton. split.
    + intros ->. repeat split; constructor.
    + intros (_ & _ & H). by destruct w.
  - rewrite upto_S, elem_of_list_join. split.
    + intros (l & Hw & (v & -> & Hv)%elem_of_list_fmap). apply elem_of_seq in Hv.
      apply elem_of_list_fmap in Hw as (w' & -> & Hw'). apply IH in Hw' as (HS & HF & HL).
      split_and!.
      * apply StronglySorted_Sorted. apply Sorted_StronglySorted in HS; [|intros ???; lia].
        clear HL. induction HS as [|a w' HS IHS Ha]; cbn; [repeat constructor|].
        inversion HF; subst. constructor; [by apply IHS|]. rewrite Forall_app; split; [done|]. by constructor.
      * rewrite Forall_app; split; [|constructor; [lia|done]]. eapply Forall_impl; [exact HF|]. cbn. lia.
      * rewrite app_length. cbn. lia.
    + intros (HS & HF & HL). destruct (decide (w = [])) as [->|Hne]; [done|].
      destruct (exists_last Hne) as (w' & v & ->). rewrite app_length in HL. cbn in HL.
      rewrite Forall_app in HF. destruct HF as [HF' HFv]. inversion HFv; subst.
      exists (ending g v). split.
      * apply elem_of_list_fmap. exists w'. split; [done|]. apply IH.
        apply Sorted_StronglySorted in HS; [|intros ???; lia].
        split_and!; [| |lia].
        -- apply StronglySorted_Sorted. clear -HS. induction w' as [|a w' IHw]; [constructor|].
           cbn in HS. inversion HS; subst. constructor; [by apply IHw|]. match goal with H : Forall _ (_ ++ _) |- _ => by rewrite Forall_app in H; destruct H end.
        -- clear -HS. induction w' as [|a w' IHw]; [constructor|]. cbn in HS. inversion HS; subst.
           match goal with H : Forall _ (_ ++ _) |- _ => rewrite Forall_app in H; destruct H as [_ H]; inversion H; subst end.
           constructor; [done|by apply IHw].
      * apply elem_of_list_fmap. exists v. split; [done|]. apply elem_of_seq. lia.
Qed.
Lemma upto_NoDup g u : NoDup (upto g u).
Proof.
  revert u. induction g as [|g IH]; intros u; [apply NoDup_singleton|].
  assert (HE : forall v, NoDup (ending g v)).
  { intros v. apply NoDup_fmap_2; [|done]. intros a b H. by apply app_inj_tail in H as [-> _]. }
  induction u as [|u IHu].
  - rewrite upto_S. cbn. by rewrite app_nil_r.
  - rewrite upto_SS. apply NoDup_app. split_and!; [done| |done].
    intros w H1 H2. apply upto_spec in H1 as (_ & HF & _).
    apply elem_of_list_fmap in H2 as (w' & -> & _). rewrite Forall_app in HF. destruct HF as [_ HF]. inversion HF. lia.
Qed.

(** All words: the empty one and the words of 1, ..., Degree letters. *)
Definition block (DIM g : nat) : list (list nat) := match DIM with 0 => [] | S u => upto g u end.
Definition words (DIM Degree : nat) : list (list nat) := mjoin (block DIM <$> seq 0 (S Degree)).
Lemma words_S DIM Degree : words DIM (S Degree) = words DIM Degree ++ block DIM (S Degree).
Proof. unfold words. rewrite (seq_S (S Degree)), fmap_app, join_app. cbn. by rewrite app_nil_r. Qed.
Lemma block_spec DIM g w : DIM > 0 -> w ∈ block DIM g <-> Sorted le w ∧ Forall (fun d => d < DIM) w ∧ length w = g.
Proof.
  intros H. destruct DIM as [|u]; [lia|]. cbn. rewrite upto_spec.
  assert (Forall (λ d, d <= u) w <-> Forall (λ d, d < S u) w) as ->; [|done].
  rewrite !Forall_forall. split; intros Hf d Hd; specialize (Hf d Hd); lia.
Qed.
Lemma words_spec DIM Degree w : DIM > 0 -> w ∈ words DIM Degree <-> Monomial DIM Degree w.
Proof.
  intros H. unfold words, Monomial. rewrite elem_of_list_join. split.
  - intros (l & Hw & (g & -> & Hg)%elem_of_list_fmap). apply elem_of_seq in Hg. apply block_spec in Hw; [|done].
    destruct Hw as (? & ? & ?). split_and!; [done..|lia].
  - intros (HS & HF & HL). exists (block DIM (length w)). split; [by apply block_spec|].
    apply elem_of_list_fmap. exists (length w). split; [done|]. apply elem_of_seq. lia.
Qed.
Lemma words_NoDup DIM Degree : DIM > 0 -> NoDup (words DIM Degree).
Proof.
  intros H. induction Degree as [|g IH].
  - unfold words. cbn. rewrite app_nil_r. destruct DIM; [lia|]. apply upto_NoDup.
  - rewrite words_S. apply NoDup_app. split_and!; [done| |destruct DIM; [lia|apply upto_NoDup]].
    intros w H1 H2. apply words_spec in H1 as (_ & _ & H1); [|done]. apply block_spec in H2 as (_ & _ & H2); [|done]. lia.
Qed.
Lemma words_length DIM Degree : DIM > 0 -> length (words DIM Degree) = choose (DIM + Degree) DIM.
Proof.
  intros H. destruct DIM as [|u]; [lia|]. induction Degree as [|g IH].
  - unfold words. cbn. rewrite Nat.add_0_r. by rewrite choose_n, choose_small by lia.
  - rewrite words_S, app_length, IH. cbn [block]. rewrite upto_length. unfold slice.
    replace (S u + S g) with (S (S g + u)) by lia. rewrite (choose_S (S g + u)).
    replace (S u + g) with (S g + u) by lia. lia.
Qed.

(** ** The loops *)
Section Loops.
Context {T : Type} (O : Ops T) (p : list T).
Notation val := (monomial_value O p).

Lemma copy_slice_ok len i prev loc x (src dn zs : list T) :
  length dn = loc + i -> take len (drop (prev + i) dn) = src -> length src = len -> len <= length zs ->
  copy_slice O len i prev loc x (dn ++ zs) = Some (dn ++ ((fun v => o_mul O v x) <$> src) ++ drop len zs).
Proof.
  revert i src dn zs. induction len as [|len IH]; intros i src dn zs Hl Hs Hn Hz; cbn [copy_slice].
  - destruct src; [|done]. by rewrite drop_0.
  - destruct src as [|a src]; [done|].
    assert (Ha : dn !! (prev + i) = Some a).
    { pose proof (f_equal (fun l => l !! 0) Hs) as E. cbn in E. rewrite lookup_take in E by lia.
      rewrite lookup_drop in E. by rewrite Nat.add_0_r in E. }
    assert (Hp : prev + i < length dn) by (apply lookup_lt_Some in Ha; done).
    rewrite lookup_app_l, Ha by lia. cbn [mbind option_bind].
    destruct zs as [|z zs]; [cbn in Hz; lia|].
    rewrite bool_decide_true by (rewrite app_length; cbn; lia).
    rewrite insert_app_r_alt by lia. replace (loc + i - length dn) with 0 by lia. cbn [insert list_insert].
    replace (dn ++ o_mul O a x :: zs) with ((dn ++ [o_mul O a x]) ++ zs) by (by rewrite <- app_assoc).
    rewrite (IH (S i) src).
    + cbn [fmap list_fmap drop]. by rewrite <- !app_assoc.
    + rewrite app_length. cbn. lia.
    + rewrite (drop_S dn a) in Hs by done. cbn [take] in Hs. injection Hs as Hs.
      replace (prev + S i) with (S (prev + i)) by lia. rewrite drop_app_le by lia. rewrite take_app_le; [done|].
      pose proof (f_equal length Hs) as E. rewrite take_length in E. cbn in Hn. lia.
    + cbn in Hn. lia.
    + cbn in Hz. lia.
Qed.

(** The words of the dimensions d, d+1, ... of the block g+1. *)
Lemma copy_dims_ok g d m (pre dn : list (list nat)) (zs : list T) prev :
  d + m = length p -> dn = pre ++ mjoin (ending g <$> seq 0 d) -> (exists l, drop prev pre = upto g (length p - 1) ++ l) ->
  length (mjoin (ending g <$> seq d m)) <= length zs ->
  copy_dims O (slice g <$> seq d m) (drop d p) prev (length dn) ((val <$> dn) ++ zs) =
    Some ((val <$> dn ++ mjoin (ending g <$> seq d m)) ++ drop (length (mjoin (ending g <$> seq d m))) zs,
          length (dn ++ mjoin (ending g <$> seq d m))).
Proof.
  revert d dn zs. induction m as [|m IH]; intros d dn zs Hd Hdn Hpre Hz.
  - cbn. by rewrite app_nil_r, drop_0.
  - destruct (lookup_lt_is_Some_2 p d) as [x Hx]; [lia|]. rewrite (drop_S p x) by done.
    cbn [seq fmap list_fmap copy_dims].
    assert (Hsrc : take (slice g d) (drop (prev + 0) (val <$> dn)) = val <$> upto g d).
    { destruct Hpre as [l Hl]. rewrite Nat.add_0_r, <- fmap_drop, <- fmap_take. f_equal. subst dn.
      destruct (upto_mono g d (length p - 1)) as [l' Hl']; [lia|].
      assert (prev <= length pre \/ drop prev pre = []) as [Hp|Hp].
      { destruct (Nat.le_gt_cases prev (length pre)); [by left|]. right. apply drop_ge. lia. }
      - rewrite drop_app_le by done. rewrite Hl, Hl', <- !app_assoc, <- upto_length. apply take_app.
      - rewrite Hp in Hl. destruct (upto g (length p - 1)) eqn:E; [|done].
        pose proof (upto_length g (length p - 1)) as E'. rewrite E in E'. cbn in E'. unfold slice in E'.
        exfalso. revert E'. generalize (length p - 1). intros u E'.
        assert (0 < choose (g + u) u); [|lia]. clear. induction g as [|g IH]; [cbn; rewrite choose_n; lia|].
        destruct u; [cbn; lia|]. cbn [plus]. rewrite choose_S. lia. }
    assert (Hlen : length (mjoin (ending g <$> seq d (S m))) = slice g d + length (mjoin (ending g <$> seq (S d) m))).
    { cbn [seq fmap list_fmap mjoin list_join]. rewrite app_length. unfold ending at 1. by rewrite fmap_length, upto_length. }
    rewrite (copy_slice_ok (slice g d) 0 prev (length dn) x (val <$> upto g d)); cycle 1.
    { rewrite fmap_length. lia. } { done. } { by rewrite fmap_length, upto_length. } { lia. }
    cbn [mbind option_bind].
    assert (Hval : (λ v : T, o_mul O v x) <$> (val <$> upto g d) = val <$> ending g d).
    { unfold ending. rewrite <- !list_fmap_compose. apply list_fmap_ext. intros _ w _. unfold compose, monomial_value.
      rewrite foldl_app. cbn. by rewrite Hx. }
    rewrite Hval, app_assoc, <- fmap_app.
    replace (length dn + slice g d) with (length (dn ++ ending g d))
      by (rewrite app_length; unfold ending; by rewrite fmap_length, upto_length).
    rewrite IH; cycle 1.
    { lia. } { subst dn. rewrite seq_S, fmap_app, join_app. cbn. by rewrite app_nil_r, app_assoc. } { done. }
    { rewrite drop_length. lia. }
    cbn [mjoin list_join]. change (list_join (ending g <$> seq (S d) m)) with (mjoin (ending g <$> seq (S d) m)).
    f_equal. rewrite app_assoc. f_equal. f_equal. rewrite drop_drop. f_equal.
    rewrite app_length. unfold ending at 2. by rewrite fmap_length, upto_length.
Qed.

Lemma block_S DIM g : mjoin (ending g <$> seq 0 DIM) = block DIM (S g).
Proof. by destruct DIM. Qed.

Lemma copy_degrees_ok n g (zs : list T) :
  length p > 0 -> length (words (length p) (g + n)) - length (words (length p) g) <= length zs ->
  copy_degrees O ((fun g => slice g <$> seq 0 (length p)) <$> seq g n) p
    (length (words (length p) g) - length (block (length p) g)) (length (words (length p) g)) ((val <$> words (length p) g) ++ zs)
  = Some ((val <$> words (length p) (g + n)) ++ drop (length (words (length p) (g + n)) - length (words (length p) g)) zs).
Proof.
  intros Hp. revert g zs. induction n as [|n IH]; intros g zs Hz.
  - rewrite Nat.add_0_r in *. cbn. by rewrite Nat.sub_diag, drop_0.
  - assert (Hgrow : forall k, length (words (length p) g) + length (block (length p) (S g)) <= length (words (length p) (S g + k))).
    { induction k as [|k IHk]; [rewrite Nat.add_0_r, words_S, app_length; lia|].
      rewrite Nat.add_succ_r, words_S, app_length. lia. }
    cbn [seq fmap list_fmap copy_degrees].
    pose proof (copy_dims_ok g 0 (length p) (words (length p) g) (words (length p) g) zs
      (length (words (length p) g) - length (block (length p) g))) as H.
    rewrite (block_S (length p)) in H. cbn [seq fmap list_fmap] in H.
    rewrite drop_0 in H. rewrite H; clear H; cycle 1.
    { done. } { cbn. by rewrite app_nil_r. }
    { exists []. rewrite app_nil_r. destruct g as [|g].
      - unfold words. cbn. rewrite app_nil_r. unfold block. destruct (length p) as [|u]; [lia|].
        rewrite Nat.sub_diag. cbn. done.
      - rewrite words_S, app_length. rewrite Nat.add_sub.
        rewrite drop_app. unfold block. destruct (length p) as [|u]; [lia|]. f_equal. lia. }
    { specialize (Hgrow n). replace (g + S n) with (S g + n) in Hz by lia. lia. }
    cbn [mbind option_bind].
    rewrite <- words_S.
    specialize (IH (S g) (drop (length (block (length p) (S g))) zs)).
    replace (length (words (length p) (S g)) - length (block (length p) (S g))) with (length (words (length p) g)) in IH
      by (rewrite words_S, app_length; lia).
    specialize (Hgrow n). rewrite IH.
    + replace (g + S n) with (S g + n) by lia. f_equal. f_equal. rewrite drop_drop. f_equal.
      rewrite words_S, app_length. lia.
    + rewrite drop_length, words_S, app_length. replace (g + S n) with (S g + n) in Hz by lia. lia.
Qed.

Lemma evaluate_basis_ok Degree : length p > 0 -> evaluate_basis O Degree p = Some (val <$> words (length p) Degree).
Proof.
  intros Hp. unfold evaluate_basis. rewrite slice_lengths_ok, basis_size_choose, <- words_length by done.
  assert (Hw : words (length p) 0 = [[]]). { unfold words. cbn. destruct (length p); [lia|done]. }
  assert (Hgrow : forall k, 1 <= length (words (length p) k)).
  { induction k as [|k IHk]; [rewrite Hw; done|]. rewrite words_S, app_length. lia. }
  pose proof (copy_degrees_ok Degree 0 (replicate (length (words (length p) Degree) - 1) (o_zero O))) as H.
  rewrite !Hw in H. cbn [plus length fmap list_fmap] in H.
  replace (length (block (length p) 0)) with 1 in H by (destruct (length p); [lia|done]).
  cbn [Nat.sub] in H. specialize (Hgrow Degree).
  replace (<[0:=o_one O]> (replicate (length (words (length p) Degree)) (o_zero O)))
    with ([val []] ++ replicate (length (words (length p) Degree) - 1) (o_zero O)); cycle 1.
  { destruct (length (words (length p) Degree)) as [|k]; [lia|]. cbn. by rewrite Nat.sub_0_r. }
  rewrite H; [|done|rewrite replicate_length; lia].
  rewrite drop_ge by (rewrite replicate_length; lia). by rewrite app_nil_r.
Qed.
End Loops.

(** ** C44 *)
(** For every dimension, degree and point the array holds the value of every monomial of total degree at most [Degree]
    exactly once, filling the [basis_size] slots; no access leaves the array; the constant comes first.  The values are
    the left-to-right products in the arithmetic of the code, rounded or exact. *)
Theorem C44_basis {T} (O : Ops T) Degree (p : list T) : length p > 0 ->
  exists ws, evaluate_basis O Degree p = Some (monomial_value O p <$> ws) ∧
    NoDup ws ∧ (forall w, w ∈ ws <-> Monomial (length p) Degree w) ∧
    length ws = basis_size (length p) Degree ∧ ws !! 0 = Some [].
Proof.
  intros Hp. exists (words (length p) Degree). split_and!.
  - by apply evaluate_basis_ok.
  - by apply words_NoDup.
  - intros w. by apply words_spec.
  - by rewrite basis_size_choose, words_length.
  - unfold words. cbn. destruct (length p); [lia|done].
Qed.

(** The size loop with its integer divisions is the binomial coefficient. *)
Theorem C44_size DIM Degree : basis_size DIM Degree = choose (DIM + Degree) DIM.
Proof. apply basis_size_choose. Qed.

Example C44_example : basis_size 3 2 = 10 ∧ evaluate_basis QOps 2 [2; 3; 5]%Q = Some [1; 2; 3; 5; 4; 6; 9; 10; 15; 25]%Q.
Proof. split; vm_compute; reflexivity. Qed.

Print Assumptions C44_basis.
Print Assumptions C44_size.

