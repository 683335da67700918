From Verif Require Import MortonModel MortonSpec.
Local Open Scope N_scope.

(** Every bit pipeline distributes over its operator. *)
Lemma wrap_bop w o x y : wrap w (bop o x y) = bop o (wrap w x) (wrap w y).
Proof.
  apply N.bits_inj. intros i. unfold wrap. destruct o; simpl;
    rewrite ?N.land_spec, ?N.lxor_spec, ?N.lor_spec, ?N.land_spec;
    destruct (N.testbit x i), (N.testbit y i), (N.testbit (N.ones w) i); done.
Qed.
Lemma land_bop o x y m : N.land (bop o x y) m = bop o (N.land x m) (N.land y m).
Proof.
  apply N.bits_inj. intros i. destruct o; simpl;
    rewrite ?N.land_spec, ?N.lxor_spec, ?N.lor_spec, ?N.land_spec;
    destruct (N.testbit x i), (N.testbit y i), (N.testbit m i); done.
Qed.
Lemma shiftl_bop o x y s : N.shiftl (bop o x y) s = bop o (N.shiftl x s) (N.shiftl y s).
Proof. destruct o; simpl; [apply N.shiftl_lxor|apply N.shiftl_lor]. Qed.
Lemma bop_shuffle o a b c d : bop o (bop o a b) (bop o c d) = bop o (bop o a c) (bop o b d).
Proof.
  apply N.bits_inj. intros i. destruct o; simpl; rewrite ?N.lxor_spec, ?N.lor_spec;
    destruct (N.testbit a i), (N.testbit b i), (N.testbit c i), (N.testbit d i); done.
Qed.
Lemma stage_bop w o sm x y : stage w o (bop o x y) sm = bop o (stage w o x sm) (stage w o y sm).
Proof. unfold stage. by rewrite shiftl_bop, wrap_bop, bop_shuffle, land_bop. Qed.
Lemma stages_bop w o sms : forall x y,
  fold_left (stage w o) sms (bop o x y) = bop o (fold_left (stage w o) sms x) (fold_left (stage w o) sms y).
Proof. induction sms as [|sm sms IH]; intros x y; simpl; [done|]. by rewrite stage_bop, IH. Qed.
Lemma expand_bop w o m0 sms x y :
  expand w o m0 sms (bop o x y) = bop o (expand w o m0 sms x) (expand w o m0 sms y).
Proof. unfold expand. by rewrite land_bop, stages_bop. Qed.

(** The spread of the [k] low bits of x with stride DIM. *)
Definition bitval (x : N) (b : nat) : N := if N.testbit x (N.of_nat b) then 1 else 0.
Fixpoint spread (DIM k : nat) (x : N) : N :=
  match k with
  | O => 0
  | S k => spread DIM k x + bitval x k * 2 ^ N.of_nat (k * DIM)
  end.

Lemma pow2_pos n : 0 < 2 ^ n.
Proof. apply N.neq_0_lt_0, N.pow_nonzero. done. Qed.

Lemma spread_lt DIM k x : (0 < DIM)%nat -> spread DIM k x < 2 ^ N.of_nat (k * DIM).
Proof.
  intros HD. induction k as [|k IH]; simpl; [done|].
  replace (N.of_nat (S k * DIM)) with (N.of_nat (k * DIM) + N.of_nat DIM) by lia.
  rewrite N.pow_add_r.
  assert (2 <= 2 ^ N.of_nat DIM).
  { change 2 with (2^1) at 1. apply N.pow_le_mono_r; lia. }
  assert (bitval x k <= 1) by (unfold bitval; destruct (N.testbit _ _); lia).
  pose proof (pow2_pos (N.of_nat (k*DIM))). nia.
Qed.

Lemma spread_testbit DIM k x : (0 < DIM)%nat -> forall i : nat,
  N.testbit (spread DIM k x) (N.of_nat i) =
    ((i <? k * DIM)%nat && (i mod DIM =? 0)%nat && N.testbit x (N.of_nat (i / DIM))).
Proof.
  intros HD. induction k as [|k IH]; intros i.
  - cbn [spread]. destruct (Nat.ltb_spec i (0 * DIM)); [lia|]. apply N.bits_0.
  - cbn [spread].
    pose proof (spread_lt DIM k x HD) as Hlt.
    assert (N.land (spread DIM k x) (bitval x k * 2 ^ N.of_nat (k * DIM)) = 0) as Hd.
    { apply N.bits_inj_0. intros n. rewrite N.land_spec, <- N.shiftl_mul_pow2.
      destruct (N.lt_ge_cases n (N.of_nat (k*DIM))).
      - rewrite N.shiftl_spec_low by done. apply andb_false_r.
      - rewrite <- (N.mod_small _ _ Hlt), N.mod_pow2_bits_high by done. done. }
    rewrite (N.add_nocarry_lxor _ _ Hd), N.lxor_spec, IH.
    rewrite <- N.shiftl_mul_pow2.
    destruct (Nat.ltb_spec i (k*DIM)) as [H1|H1].
    + rewrite N.shiftl_spec_low by lia. rewrite xorb_false_r.
      destruct (Nat.ltb_spec i (S k * DIM)); [done|nia].
    + rewrite N.shiftl_spec_high' by lia. cbn [andb xorb].
      replace (N.of_nat i - N.of_nat (k*DIM)) with (N.of_nat (i - k*DIM)) by lia.
      destruct (decide (i = k*DIM)%nat) as [->|Hne].
      * rewrite Nat.sub_diag. rewrite Nat.mod_mul, Nat.div_mul by lia. simpl.
        destruct (Nat.ltb_spec (k*DIM) (S k * DIM)); [|nia].
        unfold bitval. destruct (N.testbit x (N.of_nat k)); done.
      * assert (N.testbit (bitval x k) (N.of_nat (i - k*DIM)) = false) as ->.
        { unfold bitval. destruct (N.testbit x (N.of_nat k)); [|apply N.bits_0].
          change 1 with (2^0). apply N.pow2_bits_false. lia. }
        destruct (Nat.ltb_spec i (S k * DIM)); [|done]. simpl.
        destruct (Nat.eqb_spec (i mod DIM) 0) as [E|E]; [|done].
        exfalso. apply Nat.mod_divides in E as [c Hc]; [|lia]. subst i.
        rewrite (Nat.mul_comm DIM c) in *.
        assert (k < c)%nat by (apply (Nat.mul_lt_mono_pos_r DIM); lia).
        assert (c < S k)%nat by (apply (Nat.mul_lt_mono_pos_r DIM); lia). lia.
Qed.

(** Splitting off the top bit. *)
Lemma split_top o (x : N) k :
  x < 2 ^ N.of_nat (S k) ->
  x = bop o (x mod 2 ^ N.of_nat k) (bitval x k * 2 ^ N.of_nat k).
Proof.
  intros Hx. apply N.bits_inj. intros i.
  assert (forall a b : bool, (a = true -> b = true -> False) -> xorb a b = orb a b) as Hxo.
  { intros [] []; naive_solver. }
  rewrite <- N.shiftl_mul_pow2.
  destruct o; simpl bop; rewrite ?N.lxor_spec, ?N.lor_spec;
  destruct (N.lt_ge_cases i (N.of_nat k)) as [H|H];
  try rewrite (N.mod_pow2_bits_low _ _ _ H);
  try rewrite (N.mod_pow2_bits_high _ _ _ H);
  try rewrite (N.shiftl_spec_low _ _ _ H);
  try rewrite (N.shiftl_spec_high' _ _ _ H); rewrite ?xorb_false_r, ?orb_false_r; try done;
  cbn [xorb orb].
  all: destruct (N.eq_dec i (N.of_nat k)) as [->|Hne];
    [rewrite N.sub_diag; unfold bitval; destruct (N.testbit x (N.of_nat k)); done|].
  all: assert (N.testbit x i = false) as -> by
    (rewrite <- (N.mod_small x (2 ^ N.of_nat (S k)) Hx); apply N.mod_pow2_bits_high; lia).
  all: unfold bitval; destruct (N.testbit x (N.of_nat k)); [|by rewrite N.bits_0].
  all: change 1 with (2^0); rewrite N.pow2_bits_false; [done|lia].
Qed.

Lemma bop_0_r o x : bop o x 0 = x.
Proof. destruct o; simpl; [apply N.lxor_0_r|apply N.lor_0_r]. Qed.

Lemma expand_spread w o m0 sms DIM k :
  (0 < DIM)%nat ->
  (forall b, (b < k)%nat -> expand w o m0 sms (2 ^ N.of_nat b) = 2 ^ N.of_nat (b * DIM)) ->
  expand w o m0 sms 0 = 0 ->
  forall x, x < 2 ^ N.of_nat k -> expand w o m0 sms x = spread DIM k x.
Proof.
  intros HD Hb H0. induction k as [|k IH]; intros x Hx.
  { simpl in Hx. assert (x = 0) as -> by lia. done. }
  rewrite (split_top o x k Hx) at 1. rewrite expand_bop.
  rewrite IH; [|intros b Hlt; apply Hb; lia|apply N.mod_lt; apply N.pow_nonzero; done].
  assert (expand w o m0 sms (bitval x k * 2 ^ N.of_nat k) = bitval x k * 2 ^ N.of_nat (k*DIM)) as ->.
  { unfold bitval. destruct (N.testbit x (N.of_nat k)).
    - rewrite !N.mul_1_l. apply Hb. lia.
    - rewrite !N.mul_0_l. done. }
  (* rewrite the spread of the low part *)
  assert (forall j, (j <= k)%nat -> spread DIM j (x mod 2 ^ N.of_nat k) = spread DIM j x) as Hlow.
  { induction j as [|j IHj]; intros Hj; [done|]. cbn [spread]. rewrite IHj by lia. f_equal. f_equal.
    unfold bitval. rewrite N.mod_pow2_bits_low by lia. done. }
  rewrite Hlow by lia. cbn [spread].
  assert (N.land (spread DIM k x) (bitval x k * 2 ^ N.of_nat (k * DIM)) = 0) as Hd.
  { pose proof (spread_lt DIM k x HD) as Hlt.
    apply N.bits_inj_0. intros n. rewrite N.land_spec, <- N.shiftl_mul_pow2.
    destruct (N.lt_ge_cases n (N.of_nat (k*DIM))).
    - rewrite N.shiftl_spec_low by done. apply andb_false_r.
    - rewrite <- (N.mod_small _ _ Hlt), N.mod_pow2_bits_high by done. done. }
  destruct o; simpl bop.
  - by rewrite (N.add_nocarry_lxor _ _ Hd).
  - rewrite (N.add_nocarry_lxor _ _ Hd). apply N.bits_inj. intros i.
    assert (N.testbit (N.land (spread DIM k x) (bitval x k * 2 ^ N.of_nat (k * DIM))) i = false) as Hi
      by (rewrite Hd; apply N.bits_0).
    rewrite N.land_spec in Hi. rewrite N.lor_spec, N.lxor_spec.
    destruct (N.testbit (spread DIM k x) i), (N.testbit (bitval x k * 2 ^ N.of_nat (k * DIM)) i); done.
Qed.

(** Finite per-dimension check of the magic constants. *)
Definition magic_ok (E : N -> N) (DIM k : nat) : bool :=
  forallb (fun b => N.eqb (E (2 ^ N.of_nat b)) (2 ^ N.of_nat (b * DIM))) (seq 0 k) && N.eqb (E 0) 0.

Lemma expand_spread_check w o m0 sms DIM k :
  (0 < DIM)%nat -> magic_ok (expand w o m0 sms) DIM k = true ->
  forall x, x < 2 ^ N.of_nat k -> expand w o m0 sms x = spread DIM k x.
Proof.
  intros HD H. unfold magic_ok in H. apply andb_prop in H as [H H0].
  apply N.eqb_eq in H0. rewrite forallb_forall in H.
  apply expand_spread; auto. intros b Hb. apply N.eqb_eq, H, in_seq. lia.
Qed.

Lemma spread_1 k x : x < 2 ^ N.of_nat k -> spread 1 k x = x.
Proof.
  intros Hx. apply N.bits_inj. intros i. rewrite <- (N2Nat.id i).
  rewrite spread_testbit by lia. rewrite Nat.mul_1_r, Nat.mod_1_r, Nat.div_1_r. simpl.
  destruct (Nat.ltb_spec (N.to_nat i) k); [by rewrite ?andb_true_r|].
  rewrite <- (N.mod_small x _ Hx). symmetry. apply N.mod_pow2_bits_high. lia.
Qed.

Lemma dim_cases (P : nat -> Prop) : P 1%nat -> P 2%nat -> P 3%nat -> P 4%nat -> P 5%nat -> P 6%nat -> P 7%nat ->
  P 8%nat -> P 9%nat -> P 10%nat -> forall DIM, (1 <= DIM <= 10)%nat -> P DIM.
Proof.
  intros. do 11 (destruct DIM as [|DIM]; [first [assumption|lia]|]). lia.
Qed.

Lemma expand32_spread DIM : (1 <= DIM <= 10)%nat -> forall x, x < 2 ^ N.of_nat (bits32 DIM) ->
  expandBitsBy32 (DIM - 1) x = spread DIM (bits32 DIM) x.
Proof.
  intros HD. pattern DIM. apply dim_cases; [.. |exact HD]; clear; intros x Hx;
  cbn [Nat.sub expandBitsBy32]; try (apply expand_spread_check; [lia|vm_compute; reflexivity|exact Hx]).
  symmetry. by apply spread_1.
Qed.
Lemma expand64_spread DIM : (1 <= DIM <= 10)%nat -> forall x, x < 2 ^ N.of_nat (bits64 DIM) ->
  expandBitsBy64 (DIM - 1) x = spread DIM (bits64 DIM) x.
Proof.
  intros HD. pattern DIM. apply dim_cases; [.. |exact HD]; clear; intros x Hx;
  cbn [Nat.sub expandBitsBy64]; try (apply expand_spread_check; [lia|vm_compute; reflexivity|exact Hx]).
  symmetry. by apply spread_1.
Qed.

(** Accumulation loop. *)
Lemma testbit_bounded x k : (forall i, (k <= i)%nat -> N.testbit x (N.of_nat i) = false) -> x < 2 ^ N.of_nat k.
Proof.
  intros H. assert (x = x mod 2 ^ N.of_nat k) as ->; [|apply N.mod_lt, N.pow_nonzero; done].
  apply N.bits_inj. intros i. destruct (N.lt_ge_cases i (N.of_nat k)) as [Hi|Hi].
  - by rewrite N.mod_pow2_bits_low.
  - rewrite N.mod_pow2_bits_high by done. rewrite <- (N2Nat.id i). apply H. lia.
Qed.

Lemma wrap_small w x : x < 2 ^ w -> wrap w x = x.
Proof. intros H. unfold wrap. rewrite N.land_ones. by apply N.mod_small. Qed.

(** Bits of the partial sum after [xs0] has been processed. *)
Definition partial_bits (DIM bits : nat) (xs0 : list N) (r : N) : Prop :=
  forall i, N.testbit r (N.of_nat i) =
    ((i <? bits * DIM)%nat && match xs0 !! (DIM - 1 - i mod DIM)%nat with
                              | Some x => N.testbit x (N.of_nat (i / DIM))
                              | None => false end).

Lemma morton_loop_correct w E DIM bits : (0 < DIM)%nat -> (bits * DIM <= w)%nat ->
  (forall x, x < 2 ^ N.of_nat bits -> E x = spread DIM bits x) ->
  forall xs xs0 r, partial_bits DIM bits xs0 r -> (length xs0 + length xs <= DIM)%nat ->
   Forall (fun x => x < 2 ^ N.of_nat bits) xs ->
   partial_bits DIM bits (xs0 ++ xs)
     (fst (fold_left (fun '(r, d) x =>
       (wrap (N.of_nat w) (r + wrap (N.of_nat w) (N.shiftl (E x) (N.of_nat (DIM - d - 1)))), S d)) xs (r, length xs0))).
Proof.
  intros HD Hw HE. induction xs as [|x xs IH]; intros xs0 r Hr HL HF.
  { simpl. by rewrite app_nil_r. }
  cbn [fold_left]. apply Forall_cons in HF as [Hx HF].
  simpl in HL. set (d := length xs0) in *.
  assert (forall i, N.testbit (N.shiftl (E x) (N.of_nat (DIM - d - 1))) (N.of_nat i) =
     ((i <? bits * DIM)%nat && (i mod DIM =? DIM - 1 - d)%nat && N.testbit x (N.of_nat (i / DIM)))) as Hs.
  { intros i. rewrite HE by done.
    destruct (decide (i < DIM - d - 1)%nat) as [Hlt|Hge].
    - rewrite N.shiftl_spec_low by lia.
      rewrite Nat.mod_small by lia. destruct (Nat.eqb_spec i (DIM - 1 - d)); [lia|].
      by rewrite andb_false_r.
    - rewrite N.shiftl_spec_high' by lia.
      replace (N.of_nat i - N.of_nat (DIM - d - 1)) with (N.of_nat (i - (DIM - d - 1))) by lia.
      rewrite spread_testbit by done.
      pose proof (Nat.div_mod_eq i DIM) as Hdm. pose proof (Nat.mod_upper_bound i DIM ltac:(lia)) as Hub.
      set (q := (i / DIM)%nat) in *. set (m := (i mod DIM)%nat) in *.
      destruct (Nat.eqb_spec m (DIM - 1 - d)) as [Hm|Hm].
      + assert (i - (DIM - d - 1) = q * DIM)%nat as -> by lia.
        rewrite Nat.mod_mul, Nat.div_mul by lia. simpl. rewrite !andb_true_r.
        destruct (decide (q < bits)%nat) as [Hq|Hq].
        * destruct (Nat.ltb_spec (q*DIM) (bits*DIM)); [|nia].
          destruct (Nat.ltb_spec i (bits*DIM)); [done|nia].
        * destruct (Nat.ltb_spec (q*DIM) (bits*DIM)); [nia|].
          destruct (Nat.ltb_spec i (bits*DIM)); [nia|done].
      + rewrite andb_false_r. simpl.
        destruct (Nat.eqb_spec ((i - (DIM - d - 1)) mod DIM) 0) as [E0|E0]; [|by rewrite andb_false_r].
        exfalso. apply Hm. apply Nat.mod_divides in E0 as [c Hc]; [|lia].
        assert (i = DIM - 1 - d + c * DIM)%nat as Hi by lia.
        unfold m. rewrite Hi, Nat.mod_add by lia. apply Nat.mod_small. lia. }
  assert (wrap (N.of_nat w) (N.shiftl (E x) (N.of_nat (DIM - d - 1))) = N.shiftl (E x) (N.of_nat (DIM - d - 1))) as ->.
  { apply wrap_small, testbit_bounded. intros i Hi. rewrite Hs.
    destruct (Nat.ltb_spec i (bits*DIM)); [lia|done]. }
  set (t := N.shiftl (E x) (N.of_nat (DIM - d - 1))) in *.
  assert (N.land r t = 0) as Hd.
  { apply N.bits_inj_0. intros n. rewrite <- (N2Nat.id n), N.land_spec, Hr, Hs.
    set (i := N.to_nat n). destruct (i <? bits * DIM)%nat; [|done]. simpl.
    destruct (Nat.eqb_spec (i mod DIM) (DIM - 1 - d)) as [->|]; [|by rewrite andb_false_r].
    replace (DIM - 1 - (DIM - 1 - d))%nat with d by lia.
    rewrite (proj2 (lookup_ge_None xs0 d)) by (unfold d; lia). done. }
  assert (partial_bits DIM bits (xs0 ++ [x]) (r + t)) as Hrt.
  { intros i. rewrite (N.add_nocarry_lxor _ _ Hd), N.lxor_spec, Hr, Hs.
    destruct (i <? bits * DIM)%nat; [|done]. simpl.
    pose proof (Nat.mod_upper_bound i DIM ltac:(lia)) as Hub.
    destruct (Nat.eqb_spec (i mod DIM) (DIM - 1 - d)) as [->|Hne]; simpl.
    - replace (DIM - 1 - (DIM - 1 - d))%nat with d by lia.
      rewrite (proj2 (lookup_ge_None xs0 d)) by (unfold d; lia).
      rewrite lookup_app_r by (unfold d; lia). unfold d. rewrite Nat.sub_diag. simpl.
      by destruct (N.testbit x _).
    - rewrite xorb_false_r. set (e := (DIM - 1 - i mod DIM)%nat).
      assert (e <> d) by (unfold e; lia).
      destruct (decide (e < d)%nat).
      + by rewrite lookup_app_l.
      + rewrite (proj2 (lookup_ge_None xs0 e)) by (unfold d in *; lia).
        rewrite (proj2 (lookup_ge_None (xs0 ++ [x]) e)); [done|].
        rewrite app_length. simpl. unfold d in *. lia. }
  assert (wrap (N.of_nat w) (r + t) = r + t) as ->.
  { apply wrap_small, testbit_bounded. intros i Hi. rewrite Hrt.
    destruct (Nat.ltb_spec i (bits*DIM)); [lia|done]. }
  specialize (IH (xs0 ++ [x]) (r + t) Hrt).
  rewrite app_length in IH. simpl in IH. rewrite Nat.add_1_r in IH.
  rewrite <- app_assoc in IH. apply IH; [unfold d in *; lia|done].
Qed.

Lemma partial_bits_interleaves DIM bits xs r : (0 < DIM)%nat -> length xs = DIM ->
  partial_bits DIM bits xs r -> Interleaves DIM bits xs r.
Proof.
  intros HD HL H. split.
  - intros d x b Hx Hb. rewrite H. pose proof (lookup_lt_Some _ _ _ Hx) as Hd.
    assert ((b * DIM + (DIM - 1 - d)) mod DIM = DIM - 1 - d)%nat as ->.
    { rewrite Nat.add_comm, Nat.mod_add by lia. apply Nat.mod_small. lia. }
    assert ((b * DIM + (DIM - 1 - d)) / DIM = b)%nat as ->.
    { rewrite Nat.div_add_l by lia. rewrite Nat.div_small by lia. lia. }
    replace (DIM - 1 - (DIM - 1 - d))%nat with d by lia. rewrite Hx.
    destruct (Nat.ltb_spec (b * DIM + (DIM - 1 - d)) (bits * DIM)); [done|nia].
  - intros i Hi. rewrite H. destruct (Nat.ltb_spec i (bits*DIM)); [lia|done].
Qed.

Lemma partial_bits_nil DIM bits : partial_bits DIM bits [] 0.
Proof. intros i. rewrite N.bits_0. simpl. by rewrite andb_false_r. Qed.

Lemma bits32_fit DIM : (1 <= DIM <= 10)%nat -> (bits32 DIM * DIM <= 32)%nat.
Proof. intros HD. pattern DIM. apply dim_cases; [.. |exact HD]; clear; vm_compute; lia. Qed.
Lemma bits64_fit DIM : (1 <= DIM <= 10)%nat -> (bits64 DIM * DIM <= 63)%nat.
Proof. intros HD. pattern DIM. apply dim_cases; [.. |exact HD]; clear; vm_compute; lia. Qed.

Lemma morton32_interleaves DIM xs : (1 <= DIM <= 10)%nat -> length xs = DIM ->
  Forall (fun x => x < 2 ^ N.of_nat (bits32 DIM)) xs ->
  Interleaves DIM (bits32 DIM) xs (morton32_int DIM xs).
Proof.
  intros HD HL HF. apply partial_bits_interleaves; [lia|done|].
  apply (morton_loop_correct 32 (expandBitsBy32 (DIM-1)) DIM (bits32 DIM) ltac:(lia) (bits32_fit DIM HD)
     (expand32_spread DIM HD) xs [] 0 (partial_bits_nil _ _)); [simpl; lia|done].
Qed.
Lemma morton64_interleaves DIM xs : (1 <= DIM <= 10)%nat -> length xs = DIM ->
  Forall (fun x => x < 2 ^ N.of_nat (bits64 DIM)) xs ->
  Interleaves DIM (bits64 DIM) xs (morton64_int DIM xs).
Proof.
  intros HD HL HF. apply partial_bits_interleaves; [lia|done|].
  pose proof (bits64_fit DIM HD).
  apply (morton_loop_correct 64 (expandBitsBy64 (DIM-1)) DIM (bits64 DIM) ltac:(lia) ltac:(lia)
     (expand64_spread DIM HD) xs [] 0 (partial_bits_nil _ _)); [simpl; lia|done].
Qed.

(** Consequences of the specification alone. *)
Lemma Interleaves_lt DIM bits xs r : Interleaves DIM bits xs r -> r < 2 ^ N.of_nat (bits * DIM).
Proof. intros [_ H]. by apply testbit_bounded. Qed.

Lemma Interleaves_inj DIM bits xs ys r :
  Forall (fun x => x < 2 ^ N.of_nat bits) xs -> Forall (fun x => x < 2 ^ N.of_nat bits) ys ->
  length xs = length ys ->
  Interleaves DIM bits xs r -> Interleaves DIM bits ys r -> xs = ys.
Proof.
  intros FX FY HL [H1 _] [H2 _]. apply list_eq. intros d.
  destruct (xs !! d) as [x|] eqn:Ex.
  - destruct (lookup_lt_is_Some_2 ys d) as [y Hy]; [rewrite <- HL; eauto using lookup_lt_Some|].
    rewrite Hy. f_equal. apply N.bits_inj. intros i. rewrite <- (N2Nat.id i).
    rewrite Forall_lookup in FX, FY. specialize (FX _ _ Ex). specialize (FY _ _ Hy).
    destruct (decide (N.to_nat i < bits)%nat) as [Hi|Hi].
    + by rewrite <- (H1 d x _ Ex Hi), <- (H2 d y _ Hy Hi).
    + simpl in FX, FY. rewrite <- (N.mod_small _ _ FX), <- (N.mod_small _ _ FY).
      by rewrite !N.mod_pow2_bits_high by lia.
  - symmetry. apply lookup_ge_None. apply lookup_ge_None in Ex. lia.
Qed.

(** Order: the most significant differing bit decides. *)
Lemma lt_by_top_bit (a b : N) k :
  N.testbit a (N.of_nat k) = false -> N.testbit b (N.of_nat k) = true ->
  (forall i, (k < i)%nat -> N.testbit a (N.of_nat i) = N.testbit b (N.of_nat i)) -> a < b.
Proof.
  intros Ha Hb Hh.
  assert (a / 2 ^ N.of_nat (S k) = b / 2 ^ N.of_nat (S k)) as Hq.
  { apply N.bits_inj. intros i. rewrite <- !N.shiftr_div_pow2, !N.shiftr_spec by lia.
    rewrite <- (N2Nat.id (i + N.of_nat (S k))). apply Hh. lia. }
  pose proof (N.div_mod' a (2 ^ N.of_nat (S k))). pose proof (N.div_mod' b (2 ^ N.of_nat (S k))).
  assert (a mod 2 ^ N.of_nat (S k) < 2 ^ N.of_nat k) as Hal.
  { apply testbit_bounded. intros i Hi. destruct (decide (i = k)) as [->|].
    - rewrite N.mod_pow2_bits_low by lia. done.
    - apply N.mod_pow2_bits_high. lia. }
  assert (2 ^ N.of_nat k <= b mod 2 ^ N.of_nat (S k)) as Hbl.
  { destruct (N.le_gt_cases (2 ^ N.of_nat k) (b mod 2 ^ N.of_nat (S k))) as [|Hlt]; [done|].
    assert (N.testbit (b mod 2 ^ N.of_nat (S k)) (N.of_nat k) = true) as Hc.
    { rewrite N.mod_pow2_bits_low by lia. done. }
    rewrite <- (N.mod_small _ _ Hlt) in Hc. rewrite N.mod_pow2_bits_high in Hc by lia. done. }
  rewrite Hq in *. clear Hq Ha Hb Hh.
  remember (a mod 2 ^ N.of_nat (S k)) as ra. remember (b mod 2 ^ N.of_nat (S k)) as rb.
  remember (2 ^ N.of_nat (S k) * (b / 2 ^ N.of_nat (S k))) as q. remember (2 ^ N.of_nat k) as t.
  clear - H H0 Hal Hbl. lia.
Qed.

Lemma top_diff_bit (a b : N) : a < b -> exists k,
  N.testbit a (N.of_nat k) = false /\ N.testbit b (N.of_nat k) = true /\
  (forall i, (k < i)%nat -> N.testbit a (N.of_nat i) = N.testbit b (N.of_nat i)).
Proof.
  intros Hab. set (x := N.lxor a b).
  assert (x <> 0) as Hx by (unfold x; rewrite N.lxor_eq_0_iff; lia).
  set (k := N.to_nat (N.log2 x)). exists k.
  assert (forall i, (k < i)%nat -> N.testbit a (N.of_nat i) = N.testbit b (N.of_nat i)) as Hh.
  { intros i Hi. assert (N.testbit x (N.of_nat i) = false) as Hb by (apply N.bits_above_log2; unfold k in *; lia).
    unfold x in Hb. rewrite N.lxor_spec in Hb. by destruct (N.testbit a (N.of_nat i)), (N.testbit b (N.of_nat i)). }
  assert (N.testbit x (N.of_nat k) = true) as Hk.
  { unfold k. rewrite N2Nat.id. by apply N.bit_log2. }
  unfold x in Hk. rewrite N.lxor_spec in Hk.
  destruct (N.testbit a (N.of_nat k)) eqn:Ea, (N.testbit b (N.of_nat k)) eqn:Eb; try done.
  exfalso. assert (b < a) by (by apply (lt_by_top_bit b a k); auto; intros; symmetry; apply Hh). lia.
Qed.

(** Codes are monotone in all coordinates at once. *)
Lemma Interleaves_mono DIM bits xs ys r s : (0 < DIM)%nat ->
  length xs = DIM -> length ys = DIM ->
  Interleaves DIM bits xs r -> Interleaves DIM bits ys s ->
  Forall (fun x => x < 2 ^ N.of_nat bits) xs -> Forall (fun x => x < 2 ^ N.of_nat bits) ys ->
  (forall d x y, xs !! d = Some x -> ys !! d = Some y -> x <= y) -> r <= s.
Proof.
  intros HD LX LY HX HY FX FY Hle.
  destruct (N.le_gt_cases r s) as [|Hgt]; [done|exfalso].
  apply top_diff_bit in Hgt as (k&Hs&Hr&Hh).
  pose proof HX as [X1 X2]. pose proof HY as [Y1 Y2].
  assert (k < bits * DIM)%nat as Hk.
  { destruct (decide (k < bits*DIM)%nat); [done|]. rewrite X2 in Hr by lia. done. }
  pose proof (Nat.div_mod_eq k DIM) as Hdm. pose proof (Nat.mod_upper_bound k DIM ltac:(lia)) as Hub.
  set (b := (k / DIM)%nat) in *. set (d := (DIM - 1 - k mod DIM)%nat).
  assert (b < bits)%nat as Hb by (unfold b; apply Nat.div_lt_upper_bound; lia).
  assert (k = b * DIM + (DIM - 1 - d))%nat as Ek by (unfold d; lia).
  destruct (lookup_lt_is_Some_2 xs d) as [x Hx]; [unfold d; lia|].
  destruct (lookup_lt_is_Some_2 ys d) as [y Hy]; [unfold d; lia|].
  specialize (Hle d x y Hx Hy).
  assert (y < x); [|lia].
  apply (lt_by_top_bit y x b).
  - by rewrite <- (Y1 d y b Hy Hb), <- Ek.
  - by rewrite <- (X1 d x b Hx Hb), <- Ek.
  - intros i Hi. destruct (decide (i < bits)%nat) as [Hib|Hib].
    + rewrite <- (Y1 d y i Hy Hib), <- (X1 d x i Hx Hib). apply Hh. nia.
    + rewrite Forall_lookup in FX, FY. specialize (FX _ _ Hx). specialize (FY _ _ Hy). simpl in *.
      rewrite <- (N.mod_small _ _ FX), <- (N.mod_small _ _ FY).
      by rewrite !N.mod_pow2_bits_high by lia.
Qed.

(** Cell coordinates under any monotone rounding. *)
Lemma Qfloor_nonneg (x : Q) : (0 <= x)%Q -> (0 <= Qfloor x)%Z.
Proof. intros H. change 0%Z with (Qfloor 0). by apply Qfloor_resp_le. Qed.

Definition mono_rnd (rnd : Q -> Q) : Prop := forall x y, (x <= y)%Q -> (rnd x <= rnd y)%Q.

Lemma cell_coord_range rnd Nb p : mono_rnd rnd -> (1 <= Nb)%Z ->
  (rnd (inject_Z (Nb - 1)) == inject_Z (Nb - 1))%Q -> (0 <= cell_coord rnd Nb p < Nb)%Z.
Proof.
  intros Hm HN He. unfold cell_coord.
  set (x := rnd (p * inject_Z Nb)%Q). set (hi := rnd (inject_Z (Nb-1))) in *.
  assert (0 <= hi)%Q as Hhi.
  { rewrite He. rewrite <- Zle_Qle with (x:=0%Z). lia. }
  assert (Qfloor hi = Nb - 1)%Z as Hf by (rewrite He; apply Qfloor_Z).
  destruct (Qle_bool x 0) eqn:E1; [rewrite <- (Qfloor_Z 0); simpl; cbn; lia|].
  destruct (Qle_bool hi x) eqn:E2; [rewrite Hf; lia|].
  assert (~ (x <= 0)%Q) as N1 by (intros H; apply Qle_bool_iff in H; congruence).
  assert (~ (hi <= x)%Q) as N2 by (intros H; apply Qle_bool_iff in H; congruence).
  apply Qnot_le_lt in N1, N2. split.
  - apply Qfloor_nonneg. by apply Qlt_le_weak.
  - assert (Qfloor x <= Qfloor hi)%Z by (apply Qfloor_resp_le; by apply Qlt_le_weak). lia.
Qed.

Lemma cell_coord_mono rnd Nb p q : mono_rnd rnd -> (1 <= Nb)%Z ->
  (0 <= rnd (inject_Z (Nb - 1)))%Q -> (p <= q)%Q ->
  (cell_coord rnd Nb p <= cell_coord rnd Nb q)%Z.
Proof.
  intros Hm HN Hhi Hpq. unfold cell_coord.
  assert (rnd (p * inject_Z Nb) <= rnd (q * inject_Z Nb))%Q as Hxy.
  { apply Hm. apply Qmult_le_compat_r; [done|]. rewrite <- Zle_Qle with (x:=0%Z). lia. }
  set (x := rnd (p * inject_Z Nb)%Q) in *. set (y := rnd (q * inject_Z Nb)%Q) in *.
  set (hi := rnd (inject_Z (Nb-1))) in *.
  apply Qfloor_resp_le.
  destruct (Qle_bool x 0) eqn:E1, (Qle_bool y 0) eqn:E2, (Qle_bool hi x) eqn:E3, (Qle_bool hi y) eqn:E4;
  repeat match goal with
  | H : Qle_bool _ _ = true |- _ => apply Qle_bool_iff in H
  | H : Qle_bool ?a ?b = false |- _ =>
      assert (b < a)%Q by (apply Qnot_le_lt; intros HH; apply Qle_bool_iff in HH; congruence); clear H
  end; try lra; try (apply Qle_refl); try done; try (exfalso; eapply Qlt_not_le; [eassumption|]; eapply Qle_trans; eassumption).
Qed.
