(** C46: when row reduction does find the dependent monomials, over the real numbers. *)
From Coq Require Import Reals Lra Psatz Permutation.
From Verif Require Import Base GeomOps BoxModel InterpModel PropertiesRayReal PropertiesCrbf SvdProof PropertiesSvd PropertiesMls.
Local Open Scope R_scope.

(** The run of row reduction on the matrix [M] is clean: until all rows from the pivot row on are zero, a pivot never comes from above the
    pivot row (line 313 starts the search with row 0), and a column passed over has no entries from the pivot row on. *)
Fixpoint clean_run (fuel n pivot_row pivot_col : nat) (tolerance : R) (M : nat -> nat -> R) : Prop :=
  match fuel with
  | 0%nat => True
  | S fuel =>
      if bool_decide (pivot_row < n ∧ pivot_col < n)%nat then
        let i_max := find_pivot ROps n pivot_row pivot_col M in
        (forall i j, (pivot_row <= i < n)%nat -> (j < n)%nat -> M i j = 0) \/
        if o_ltb ROps (t_abs ROps (M i_max pivot_col)) tolerance
        then (forall i, (pivot_row <= i < n)%nat -> M i pivot_col = 0) /\ clean_run fuel n pivot_row (S pivot_col) tolerance M
        else (pivot_row <= i_max)%nat /\
             clean_run fuel n (S pivot_row) (S pivot_col) tolerance
               (freeze ROps n (eliminate_below ROps pivot_row pivot_col (freeze ROps n (fun i => M (swap_index pivot_row i_max i)))))
      else True
  end.

Section Echelon.
Context (n : nat) (A : nat -> nat -> R) (tol : R) (Htol : 0 < tol).

Record Inv (pr pc : nat) (M : nat -> nat -> R) (perm : nat -> nat) : Prop := {
  inv_le : (pr <= n)%nat;
  inv_perm : (forall i, (i < n)%nat -> (perm i < n)%nat) /\ (forall i j, (i < n)%nat -> (j < n)%nat -> perm i = perm j -> i = j);
  inv_L : exists L : nat -> nat -> R, forall i j, (i < n)%nat -> (j < n)%nat -> A (perm i) j = M i j + rsum (min i pr) (fun k => L i k * M k j);
  inv_p : exists p : nat -> nat, forall i, (i < pr)%nat -> (i <= p i < pc)%nat /\ (p i < n)%nat /\ tol <= Rabs (M i (p i)) /\
    (forall j, (j < p i)%nat -> M i j = 0) /\ (forall i', (i < i' < pr)%nat -> (p i < p i')%nat);
  inv_zero : forall i j, (pr <= i < n)%nat -> (j < pc)%nat -> (j < n)%nat -> M i j = 0;
  inv_pc : (pr <= pc)%nat }.

Lemma find_pivot_lt pr pc M : (pr < n)%nat -> (find_pivot ROps n pr pc M < n)%nat.
Proof.
  intros H. unfold find_pivot. set (l := seq pr (n - pr)).
  assert (Forall (fun i => (i < n)%nat) l) as Hl by (apply Forall_forall; intros i Hi%elem_of_seq; lia). clearbody l.
  assert (0 < n)%nat as H0 by lia. revert H0. generalize (o_zero ROps). generalize 0%nat. induction Hl as [|i l Hi Hl IH]; intros k z Hk; [done|].
  cbn [foldl]. destruct (o_ltb ROps z _); by apply IH.
Qed.
Lemma swap_lt a b i : (a < n)%nat -> (b < n)%nat -> (i < n)%nat -> (swap_index a b i < n)%nat.
Proof. intros. unfold swap_index. repeat case_bool_decide; lia. Qed.
Lemma swap_inj a b i j : swap_index a b i = swap_index a b j -> i = j.
Proof. unfold swap_index. repeat case_bool_decide; lia. Qed.
Lemma swap_below a b i : (i < a)%nat -> (a <= b)%nat -> swap_index a b i = i.
Proof. intros. unfold swap_index. repeat case_bool_decide; lia. Qed.
Lemma swap_above a b i : (a <= i)%nat -> (a <= b)%nat -> (a <= swap_index a b i)%nat.
Proof. intros. unfold swap_index. repeat case_bool_decide; lia. Qed.
Lemma swap_at a b : swap_index a b a = b.
Proof. unfold swap_index. by rewrite bool_decide_eq_true_2. Qed.

Lemma inv_skip pr pc M perm : Inv pr pc M perm -> (forall i, (pr <= i < n)%nat -> M i pc = 0) -> Inv pr (S pc) M perm.
Proof.
  intros [Hle Hp HL [p Hq] Hz Hpc] Hc. split; [done..| | |lia].
  - exists p. intros i Hi. destruct (Hq i Hi) as (? & ? & ? & ? & ?). split_and!; try done; lia.
  - intros i j Hi Hj Hn. destruct (decide (j = pc)) as [->|]; [by apply Hc|]. apply Hz; lia.
Qed.
Lemma inv_step pr pc M perm im : (pr < n)%nat -> (pc < n)%nat -> (im < n)%nat -> (pr <= im)%nat -> tol <= Rabs (M im pc) -> Inv pr pc M perm ->
  Inv (S pr) (S pc) (freeze ROps n (eliminate_below ROps pr pc (freeze ROps n (fun i => M (swap_index pr im i))))) (fun i => perm (swap_index pr im i)).
Proof.
  intros Hpr Hpcn Him Hle Hbig [_ [P1 P2] [L HL] [p Hq] Hz Hpc].
  set (M1 := freeze ROps n (fun i => M (swap_index pr im i))).
  assert (H1 : forall i j, (i < n)%nat -> (j < n)%nat -> M1 i j = M (swap_index pr im i) j) by (intros; unfold M1; by rewrite freeze_ok).
  assert (Hz1 : forall i j, (pr <= i < n)%nat -> (j < pc)%nat -> M1 i j = 0).
  { intros i j Hi Hj. rewrite H1 by lia. apply Hz; [|lia..]. split; [apply swap_above; lia|apply swap_lt; lia]. }
  assert (Hpiv : M1 pr pc <> 0). { rewrite H1, swap_at by lia. intros E. rewrite E, Rabs_R0 in Hbig. lra. }
  set (f i := M1 i pc / M1 pr pc).
  set (M2 := freeze ROps n (eliminate_below ROps pr pc M1)).
  assert (H2 : forall i j, (i < n)%nat -> (j < n)%nat -> M2 i j = if decide (i <= pr)%nat then M1 i j else M1 i j - f i * M1 pr j).
  { intros i j Hi Hj. unfold M2. rewrite freeze_ok by done. unfold eliminate_below. case_bool_decide as C1; case_decide; try lia; [done|].
    case_bool_decide as C2; [subst j; real_ops; unfold f; field; done|]. case_bool_decide as C3; [rewrite (Hz1 pr j) by lia; rewrite Rmult_0_r, Rminus_0_r; done|]. real_ops. unfold f. field. done. }
  clearbody M2.
  split; [lia| | | | |lia].
  - split; [intros i Hi; apply P1, swap_lt; lia|]. intros i j Hi Hj H. apply (swap_inj pr im), P2; [apply swap_lt; lia..|exact H].
  - exists (fun i k => if decide (i <= pr)%nat then L (swap_index pr im i) k else if decide (k = pr) then f i else L (swap_index pr im i) k).
    intros i j Hi Hj. rewrite (HL (swap_index pr im i) j) by (try done; apply swap_lt; lia).
    assert (forall k, (k < pr)%nat -> M2 k j = M k j) as HM. { intros k Hk. rewrite H2 by lia. case_decide; [|lia]. by rewrite H1, swap_below by lia. }
    rewrite H2 by done. destruct (decide (i <= pr)%nat) as [Hi'|Hi'].
    + rewrite H1 by done. f_equal. assert (min (swap_index pr im i) pr = min i (S pr)) as ->.
      { destruct (decide (i = pr)) as [->|]; [rewrite swap_at; lia|]. rewrite swap_below by lia. lia. }
      apply rsum_ext. intros k Hk. rewrite HM by lia. done.
    + pose proof (swap_above pr im i). replace (min (swap_index pr im i) pr) with pr by lia. replace (min i (S pr)) with (S pr) by lia. rewrite rsum_S.
      rewrite decide_True by done. rewrite (H2 pr) by lia. rewrite decide_True by lia. rewrite (H1 i) by done.
      rewrite (rsum_ext pr (fun k => (if decide (k = pr) then f i else L (swap_index pr im i) k) * M2 k j) (fun k => L (swap_index pr im i) k * M k j)); [lra|].
      intros k Hk. rewrite HM by done. by rewrite decide_False by lia.
  - exists (fun i => if decide (i < pr)%nat then p i else pc). intros i Hi. destruct (decide (i < pr)%nat) as [Hlt|Hge].
    + destruct (Hq i Hlt) as (Q1 & Q2 & Q3 & Q4 & Q5).
      assert (forall j, (j < n)%nat -> M2 i j = M i j) as HM. { intros j Hj. rewrite H2 by lia. case_decide; [|lia]. by rewrite H1, swap_below by lia. }
      split_and!; try lia.
      * by rewrite HM.
      * intros j Hj. rewrite HM by lia. by apply Q4.
      * intros i' Hi'. case_decide; [apply Q5; lia|lia].
    + assert (i = pr) as -> by lia. split_and!; try lia.
      * rewrite H2 by lia. rewrite decide_True by lia. by rewrite H1, swap_at by lia.
      * intros j Hj. rewrite H2 by lia. rewrite decide_True by lia. apply Hz1; lia.
  - intros i j Hi Hj Hn. rewrite H2 by lia. rewrite decide_False by lia. destruct (decide (j = pc)) as [->|]; [unfold f; field; done|].
    rewrite !Hz1 by lia. lra.
Qed.
(** All rows left are zero. *)
Lemma find_pivot_zero pr pc M : (forall i, (pr <= i < n)%nat -> M i pc = 0) -> find_pivot ROps n pr pc M = 0%nat.
Proof.
  intros H. unfold find_pivot. assert (Forall (fun i => M i pc = 0) (seq pr (n - pr))) as HF by (apply Forall_forall; intros i Hi%elem_of_seq; apply H; lia).
  induction HF as [|i l Hi HF IH]; [done|]. cbn [foldl]. rewrite t_abs_Rabs, Hi, Rabs_R0. real_ops. rewrite (proj2 (Rltb_ge 0 0)) by lra. exact IH.
Qed.
Lemma run_zero fuel pr pc M perm E perm' : (forall i j, (pr <= i < n)%nat \/ i = 0%nat -> (j < n)%nat -> M i j = 0) ->
  row_echelon ROps fuel n pr pc tol M perm = Some (E, perm') -> E = M /\ perm' = perm.
Proof.
  intros HZ. revert pc. induction fuel as [|fuel IH]; intros pc HR; [done|]. cbn [row_echelon] in HR. case_bool_decide as Hc; [|by simplify_eq]. cbn zeta in HR.
  rewrite find_pivot_zero in HR by (intros; apply HZ; lia). rewrite t_abs_Rabs, HZ, Rabs_R0 in HR by lia. real_ops. rewrite (proj2 (Rltb_lt 0 tol)) in HR by lra. by apply IH in HR.
Qed.
Lemma run_finished fuel pr pc M perm E perm' : (pr <= pc)%nat -> (forall i j, (pr <= i < n)%nat -> (j < n)%nat -> M i j = 0) ->
  row_echelon ROps fuel n pr pc tol M perm = Some (E, perm') ->
  (E = M /\ perm' = perm) \/
  ((0 < pr < n)%nat /\ (forall i j, (i < n)%nat -> (j < n)%nat -> E i j = M (swap_index pr 0 i) j) /\ perm' = (fun i => perm (swap_index pr 0 i)) /\ exists c, (pr <= c < n)%nat /\ tol <= Rabs (M 0%nat c)).
Proof.
  intros Hle HZ. destruct (decide (pr = 0%nat)) as [->|Hpos]; [intros HR; left; eapply run_zero; [|exact HR]; intros i j [Hi| ->] Hj; [by apply HZ|]|].
  { destruct (decide (n = 0%nat)) as [->|]; [lia|]. apply HZ; lia. }
  revert pc Hle. induction fuel as [|fuel IH]; intros pc Hle HR; [done|]. cbn [row_echelon] in HR. case_bool_decide as Hc; [|left; by simplify_eq]. cbn zeta in HR.
  rewrite find_pivot_zero in HR by (intros; apply HZ; lia). destruct (o_ltb ROps (t_abs ROps (M 0%nat pc)) tol) eqn:Hlt; [by apply IH in HR; [|lia]|]. right.
  rewrite t_abs_Rabs in Hlt. real_ops. apply Rltb_ge in Hlt.
  set (M1 := freeze ROps n (fun i => M (swap_index pr 0 i))) in HR.
  assert (H1 : forall i j, (i < n)%nat -> (j < n)%nat -> M1 i j = M (swap_index pr 0 i) j) by (intros; unfold M1; by rewrite freeze_ok).
  set (M2 := freeze ROps n (eliminate_below ROps pr pc M1)) in HR.
  assert (HZ1 : forall i j, (pr < i < n)%nat -> (j < n)%nat -> M1 i j = 0).
  { intros i j Hi Hj. rewrite H1 by lia. unfold swap_index. rewrite !bool_decide_eq_false_2 by lia. apply HZ; lia. }
  assert (H2 : forall i j, (i < n)%nat -> (j < n)%nat -> M2 i j = M1 i j).
  { intros i j Hi Hj. unfold M2. rewrite freeze_ok by done. unfold eliminate_below. case_bool_decide as C1; [done|]. rewrite !(HZ1 i) by lia. repeat case_bool_decide; real_ops; [done..|]. unfold Rdiv. lra. }
  apply run_zero in HR as [-> ->].
  - split; [lia|]. split; [|split; [done|]]; [|exists pc; split; [lia|done]]. intros i j Hi Hj. by rewrite H2, H1.
  - intros i j Hi Hj. rewrite H2 by lia. destruct Hi as [Hi| ->]; [apply HZ1; lia|]. rewrite H1 by lia. unfold swap_index. rewrite bool_decide_eq_false_2, bool_decide_eq_true_2 by lia. apply HZ; lia.
Qed.
Lemma run_total fuel pr pc M perm : (n - pc < fuel)%nat -> exists E perm', row_echelon ROps fuel n pr pc tol M perm = Some (E, perm').
Proof.
  revert pr pc M perm. induction fuel as [|fuel IH]; intros pr pc M perm Hf; [lia|]. cbn [row_echelon]. case_bool_decide; [|by eauto]. cbn zeta. destruct (o_ltb ROps _ tol); apply IH; lia.
Qed.
(** What is found in the end, with the state [r], [M'], [p'] when all rows left are zero. *)
Lemma inv_run fuel pr pc M perm E perm' : Inv pr pc M perm -> clean_run fuel n pr pc tol M -> row_echelon ROps fuel n pr pc tol M perm = Some (E, perm') ->
  exists r c M' p', Inv r c M' p' /\ (forall i j, (r <= i < n)%nat -> (j < n)%nat -> M' i j = 0) /\ (pr <= r)%nat /\ (forall i, (i < pr)%nat -> p' i = perm i) /\
    ((E = M' /\ perm' = p') \/
     ((0 < r < n)%nat /\ (forall i j, (i < n)%nat -> (j < n)%nat -> E i j = M' (swap_index r 0 i) j) /\ perm' = (fun i => p' (swap_index r 0 i)) /\ exists c, (r <= c < n)%nat /\ tol <= Rabs (M' 0%nat c))).
Proof.
  revert pr pc M perm. induction fuel as [|fuel IH]; intros pr pc M perm HI HC HR; [done|]. pose proof HR as HR0. cbn [row_echelon clean_run] in HR, HC.
  case_bool_decide as Hc.
  - cbn zeta in *. set (im := find_pivot ROps n pr pc M) in *. destruct HC as [HZ|HC].
    + exists pr, pc, M, perm. split; [done|]. split; [done|]. split; [lia|]. split; [done|]. eapply run_finished; [|done|exact HR0]. apply (inv_pc _ _ _ _ HI).
    + destruct (o_ltb ROps (t_abs ROps (M im pc)) tol) eqn:Hlt.
      * destruct HC as [H1 H2]. eapply IH; [|exact H2|exact HR]. by apply inv_skip.
      * destruct HC as [H1 H2]. apply IH in HR as (r & c & M' & p' & G1 & G2 & G3 & G4 & G5).
        -- exists r, c, M', p'. split; [done|]. split; [done|]. split; [lia|]. split; [|done]. intros i Hi. rewrite G4 by lia. by rewrite swap_below by lia.
        -- apply inv_step; try lia; [apply find_pivot_lt; lia| |done].
           rewrite t_abs_Rabs in Hlt. real_ops. by apply Rltb_ge in Hlt.
        -- done.
  - injection HR as <- <-. exists pr, pc, M, perm. split; [done|]. split; [|split; [lia|]; split; [done|by left]].
    intros i j Hi Hj. destruct HI. apply inv_zero0; lia.
Qed.
Lemma inv_start : Inv 0 0 A Datatypes.id.
Proof.
  split; [lia| | | | |lia].
  - split; [done|]. intros i j _ _ H. exact H.
  - exists (fun _ _ => 0). intros i j _ _. replace (min i 0) with 0%nat by lia. rewrite rsum_0. unfold Datatypes.id. lra.
  - exists (fun _ => 0%nat). intros i Hi. lia.
  - intros i j Hi Hj. lia.
Qed.

(** ** Linear algebra *)
Lemma rsum_only m k f : (k < m)%nat -> (forall l, (l < m)%nat -> l <> k -> f l = 0) -> rsum m f = f k.
Proof.
  intros Hk H. rewrite (rsum_ext m f (fun l => delta l k * f l)); [by apply (rsum_delta m k f)|]. intros l Hl. destruct (decide (l = k)) as [->|Hne]; [rewrite delta_same; lra|].
  rewrite delta_other, H by done. lra.
Qed.
Lemma rsum_narrow m m' f : (m <= m')%nat -> (forall l, (m <= l < m')%nat -> f l = 0) -> rsum m' f = rsum m f.
Proof.
  intros Hle H. induction m' as [|m' IH]; [by replace m with 0%nat by lia|]. destruct (decide (m = S m')) as [->|]; [done|]. rewrite rsum_S, IH, H by (intros; try apply H; lia). lra.
Qed.
(** Which rows are found to be zero. *)
Lemma row_max_ge i j E : (i <= j < n)%nat -> Rabs (E i j) <= row_max ROps n i E.
Proof.
  intros Hj. unfold row_max. assert (j ∈ seq i (n - i)) as Hin by (apply elem_of_seq; lia). revert Hin. generalize (seq i (n - i)). intros l.
  assert (forall l m, m <= foldl (fun m j => if o_ltb ROps m (t_abs ROps (E i j)) then t_abs ROps (E i j) else m) m l) as Hmono.
  { clear. induction l as [|x l IH]; intros m; [simpl; lra|]. cbn [foldl]. destruct (o_ltb ROps m (t_abs ROps (E i x))) eqn:Hl; [|apply IH].
    real_ops. apply Rltb_lt in Hl. eapply Rle_trans; [apply Rlt_le, Hl|apply IH]. }
  generalize (o_zero ROps). induction l as [|x l IH]; intros m; [by intros ?%elem_of_nil|]. intros [-> | Hin]%elem_of_cons; [|cbn [foldl]; by apply IH].
  cbn [foldl]. destruct (o_ltb ROps m (t_abs ROps (E i x))) eqn:Hl; rewrite t_abs_Rabs in *; [apply Hmono|]. eapply Rle_trans; [|apply Hmono]. real_ops. by apply Rltb_ge in Hl.
Qed.
Lemma row_max_zero i E : (forall j, (i <= j < n)%nat -> E i j = 0) -> row_max ROps n i E = 0.
Proof.
  intros H. unfold row_max. assert (Forall (fun j => E i j = 0) (seq i (n - i))) as HF by (apply Forall_forall; intros j Hj%elem_of_seq; apply H; lia).
  change 0 with (o_zero ROps). induction HF as [|x l Hx HF IH]; [done|]. cbn [foldl]. rewrite t_abs_Rabs, Hx, Rabs_R0. real_ops.
  rewrite (proj2 (Rltb_ge 0 0)) by lra. exact IH.
Qed.
Section Result.
Context (r c : nat) (M : nat -> nat -> R) (perm : nat -> nat) (HI : Inv r c M perm) (row_zero : forall i j, (r <= i < n)%nat -> (j < n)%nat -> M i j = 0).

(** The kept rows are independent. *)
Lemma independent (y : nat -> R) : (forall j, (j < n)%nat -> rsum r (fun i => y i * A (perm i) j) = 0) -> forall i, (i < r)%nat -> y i = 0.
Proof.
  intros H. destruct (inv_L _ _ _ _ HI) as [L HL]. destruct (inv_p _ _ _ _ HI) as [p Hp]. pose proof (inv_le _ _ _ _ HI) as Hr.
  set (L' i k := if decide (k < i)%nat then L i k else if decide (k = i) then 1 else 0).
  set (w k := rsum r (fun i => y i * L' i k)).
  assert (HA : forall i j, (i < r)%nat -> (j < n)%nat -> A (perm i) j = rsum r (fun k => L' i k * M k j)).
  { intros i j Hi Hj. rewrite (HL i j) by lia. replace (min i r) with i by lia. rewrite (rsum_narrow (S i) r); [|lia|].
    - rewrite rsum_S. unfold L' at 2. rewrite decide_False, decide_True by lia.
      rewrite (rsum_ext i (fun k => L' i k * M k j) (fun k => L i k * M k j)); [lra|]. intros k Hk. unfold L'. by rewrite decide_True by lia.
    - intros l Hl. unfold L'. rewrite !decide_False by lia. lra. }
  assert (Hw : forall j, (j < n)%nat -> rsum r (fun k => w k * M k j) = 0).
  { intros j Hj. rewrite <- (H j Hj). rewrite (rsum_ext r (fun i => y i * A (perm i) j) (fun i => rsum r (fun k => y i * L' i k * M k j))).
    - rewrite rsum_swap. apply rsum_ext. intros k Hk. unfold w. by rewrite <- rsum_scal_r.
    - intros i Hi. rewrite HA by done. rewrite <- rsum_scal. apply rsum_ext. intros. ring. }
  assert (Hw0 : forall k, (k < r)%nat -> w k = 0).
  { intros k. induction k as [k IH] using lt_wf_ind. intros Hk. destruct (Hp k Hk) as (Q1 & Q2 & Q3 & Q4 & Q5). specialize (Hw (p k) Q2).
    rewrite (rsum_only r k) in Hw; [|done|].
    - apply Rmult_integral in Hw as [|Hw]; [done|]. rewrite Hw, Rabs_R0 in Q3. lra.
    - intros l Hl Hne. destruct (decide (l < k)%nat) as [Hlt|Hge]; [rewrite IH by done; lra|]. destruct (Hp l Hl) as (_ & _ & _ & Q4' & _). rewrite Q4'; [lra|]. apply Q5. lia. }
  assert (forall d k, (k < r)%nat -> (r - k <= d)%nat -> y k = 0) as HX; [|intros i Hi; by apply (HX (r - i)%nat)].
  induction d as [|d IH]; intros k Hk Hd; [lia|]. pose proof (Hw0 k Hk) as Hwk. unfold w in Hwk. rewrite (rsum_only r k) in Hwk; [|done|].
  - unfold L' in Hwk. rewrite decide_False, decide_True in Hwk by lia. lra.
  - intros l Hl Hne. destruct (decide (l < k)%nat) as [Hlt|Hge]; [|rewrite IH by lia; lra]. unfold L'. rewrite !decide_False by lia. lra.
Qed.
(** The other rows depend on them. *)
Lemma reduced_spanned : exists C : nat -> nat -> R, forall k j, (k < r)%nat -> (j < n)%nat -> M k j = rsum r (fun l => C k l * A (perm l) j).
Proof.
  destruct (inv_L _ _ _ _ HI) as [L HL]. pose proof (inv_le _ _ _ _ HI) as Hr.
  enough (forall K, (K <= r)%nat -> exists C : nat -> nat -> R, forall k j, (k < K)%nat -> (j < n)%nat -> M k j = rsum r (fun l => C k l * A (perm l) j)) as HX by (by apply HX).
  induction K as [|K IH]; intros HK; [exists (fun _ _ => 0); lia|]. destruct IH as [C HC]; [lia|].
  exists (fun k l => if decide (k = K) then delta l K - rsum K (fun m => L K m * C m l) else C k l). intros k j Hk Hj. destruct (decide (k = K)) as [->|Hne]; [|apply HC; lia].
  pose proof (HL K j ltac:(lia) Hj) as E. replace (min K r) with K in E by lia.
  rewrite (rsum_ext r _ (fun l => delta l K * A (perm l) j - rsum K (fun m => L K m * C m l) * A (perm l) j)) by (intros; ring).
  rewrite rsum_minus, (rsum_delta r K (fun l => A (perm l) j)) by lia. rewrite E.
  rewrite (rsum_ext r (fun l => rsum K _ * _) (fun l => rsum K (fun m => L K m * C m l * A (perm l) j))) by (intros; by rewrite <- rsum_scal_r).
  rewrite rsum_swap. rewrite (rsum_ext K (fun m => rsum r _) (fun m => L K m * M m j)); [lra|].
  intros m Hm. rewrite (HC m j) by lia. rewrite <- rsum_scal. apply rsum_ext. intros. ring.
Qed.
Lemma dependent i : (r <= i < n)%nat -> exists c : nat -> R, forall j, (j < n)%nat -> A (perm i) j = rsum r (fun l => c l * A (perm l) j).
Proof.
  intros Hi. destruct (inv_L _ _ _ _ HI) as [L HL]. destruct reduced_spanned as [C HC].
  exists (fun l => rsum r (fun k => L i k * C k l)). intros j Hj. rewrite (HL i j) by lia. rewrite row_zero by lia. replace (min i r) with r by lia. rewrite Rplus_0_l.
  rewrite (rsum_ext r (fun l => rsum r _ * _) (fun l => rsum r (fun k => L i k * C k l * A (perm l) j))) by (intros; by rewrite <- rsum_scal_r).
  rewrite rsum_swap. apply rsum_ext. intros k Hk. rewrite (HC k j) by lia. rewrite <- rsum_scal. apply rsum_ext. intros. ring.
Qed.
Lemma zero_rows_iff i : i ∈ zero_rows ROps n tol M <-> (r <= i < n)%nat.
Proof.
  unfold zero_rows. rewrite elem_of_list_filter, elem_of_seq. split.
  - intros [Hm Hi]. split; [|lia]. apply Nat.nlt_ge. intros Hr. destruct (inv_p _ _ _ _ HI) as [p Hp]. destruct (Hp i Hr) as (Q1 & Q2 & Q3 & _).
    real_ops. apply Rltb_lt in Hm. pose proof (row_max_ge i (p i) M ltac:(lia)). lra.
  - intros Hi. split; [|lia]. rewrite row_max_zero by (intros; apply row_zero; lia). real_ops. by apply Rltb_lt.
Qed.
Lemma perm_onto j : (j < n)%nat -> exists k, (k < n)%nat /\ perm k = j.
Proof.
  intros Hj. destruct (inv_perm _ _ _ _ HI) as [P1 P2].
  assert (perm <$> seq 0 n ≡ₚ seq 0 n) as HP.
  { apply submseteq_Permutation_length_eq; [by rewrite fmap_length|]. apply NoDup_submseteq.
    - apply NoDup_fmap_2_strong; [|apply NoDup_seq]. intros x y Hx%elem_of_seq Hy%elem_of_seq. apply P2; lia.
    - intros x (y & -> & Hy%elem_of_seq)%elem_of_list_fmap. apply elem_of_seq. split; [lia|]. apply P1. lia. }
  assert (j ∈ perm <$> seq 0 n) as (k & -> & Hk%elem_of_seq)%elem_of_list_fmap by (rewrite HP; apply elem_of_seq; lia). exists k. split; [lia|done].
Qed.
Lemma rsum_perm f : rsum n (fun k => f (perm k)) = rsum n f.
Proof.
  destruct (inv_perm _ _ _ _ HI) as [P1 P2].
  rewrite (rsum_ext n (fun k => f (perm k)) (fun k => rsum n (fun j => delta j (perm k) * f j))) by (intros k Hk; by rewrite (rsum_delta n (perm k) f) by auto).
  rewrite rsum_swap. apply rsum_ext. intros j Hj. rewrite rsum_scal_r. destruct (perm_onto j Hj) as (k & Hk & E). rewrite (rsum_only n k); [rewrite E, delta_same; lra|done|].
  intros l Hl Hne. apply delta_other. intros E'. apply Hne. apply P2; [done..|]. congruence.
Qed.
End Result.

Definition leaves (r : nat) (M' : nat -> nat -> R) (p' : nat -> nat) (E : nat -> nat -> R) (perm' : nat -> nat) : Prop :=
  (E = M' /\ perm' = p') \/
  ((0 < r < n)%nat /\ (forall i j, (i < n)%nat -> (j < n)%nat -> E i j = M' (swap_index r 0 i) j) /\ perm' = (fun i => p' (swap_index r 0 i)) /\ exists c, (r <= c < n)%nat /\ tol <= Rabs (M' 0%nat c)).
Lemma dropped_iff r c M' p' E perm' d : Inv r c M' p' -> (forall i j, (r <= i < n)%nat -> (j < n)%nat -> M' i j = 0) -> leaves r M' p' E perm' ->
  d ∈ perm' <$> zero_rows ROps n tol E <-> exists i, (r <= i < n)%nat /\ p' i = d.
Proof.
  intros HI HZ [[-> ->]|(Hr & HE & -> & c' & Hc' & Hbig)].
  - rewrite elem_of_list_fmap. split; intros (i & H1 & H2); exists i.
    + split; [by eapply zero_rows_iff in H2|done].
    + split; [done|]. by eapply zero_rows_iff.
  - assert (HZE : forall i, i ∈ zero_rows ROps n tol E <-> (i = 0 \/ r < i < n)%nat).
    { intros i. unfold zero_rows. rewrite elem_of_list_filter, elem_of_seq. split.
      - intros [Hm Hi]. destruct (decide (i = 0%nat)) as [|Hi0]; [by left|]. right. split; [|lia]. apply Nat.nle_gt. intros Hle. real_ops. apply Rltb_lt in Hm.
        destruct (decide (i = r)) as [->|Hne].
        + pose proof (row_max_ge r c' E ltac:(lia)) as Hg. rewrite HE, swap_at in Hg by lia. lra.
        + destruct (inv_p _ _ _ _ HI) as [p Hp]. destruct (Hp i ltac:(lia)) as (Q1 & Q2 & Q3 & _). pose proof (row_max_ge i (p i) E ltac:(lia)) as Hg.
          rewrite HE in Hg by lia. unfold swap_index in Hg. rewrite !bool_decide_eq_false_2 in Hg by lia. lra.
      - intros Hi. split; [|lia]. rewrite row_max_zero; [real_ops; by apply Rltb_lt|]. intros j Hj. rewrite HE by lia. apply HZ; [|lia].
        unfold swap_index. repeat case_bool_decide; lia. }
    rewrite elem_of_list_fmap. split.
    + intros (i & -> & Hi%HZE). exists (swap_index r 0 i). split; [|done]. unfold swap_index. repeat case_bool_decide; lia.
    + intros (i & Hi & <-). exists (swap_index r 0 i). split.
      * f_equal. unfold swap_index. repeat case_bool_decide; lia.
      * apply HZE. unfold swap_index. repeat case_bool_decide; lia.
Qed.

(** The matrix left over and the monomials dropped, for a moment matrix. *)
Context (nb : nat) (phi : nat -> R) (W : nat -> nat -> R).
Context (Hphi : forall m, (m < nb)%nat -> 0 <= phi m) (HA : forall i j, (i < n)%nat -> (j < n)%nat -> A i j = rsum nb (fun m => W m i * W m j * phi m)).

Lemma moment_sym i j : (i < n)%nat -> (j < n)%nat -> A i j = A j i.
Proof. intros Hi Hj. rewrite !HA by done. apply rsum_ext. intros. ring. Qed.
Lemma moment_kernel (u : nat -> R) : (forall i, (i < n)%nat -> rsum n (fun j => A i j * u j) = 0) -> forall m, (m < nb)%nat -> 0 < phi m -> rsum n (fun k => W m k * u k) = 0.
Proof.
  intros Hu m Hm Hpm. set (v m := rsum n (fun k => W m k * u k)).
  assert (rsum nb (fun m => phi m * (v m * v m)) = 0) as HQ.
  { rewrite <- (rsum_zero n (fun i => u i * rsum n (fun j => A i j * u j))) by (intros i Hi; rewrite Hu by done; lra).
    rewrite (rsum_ext n (fun i => u i * _) (fun i => rsum n (fun j => rsum nb (fun m => phi m * ((W m i * u i) * (W m j * u j)))))).
    - symmetry. rewrite (rsum_ext n _ (fun i => rsum nb (fun m => rsum n (fun j => phi m * ((W m i * u i) * (W m j * u j)))))) by (intros; by rewrite rsum_swap).
      rewrite rsum_swap. apply rsum_ext. intros k _. rewrite (rsum_ext n _ (fun i => W k i * u i * (phi k * v k))).
      + rewrite rsum_scal_r. unfold v. ring.
      + intros i _. unfold v. rewrite <- !rsum_scal. apply rsum_ext. intros. ring.
    - intros i Hi. rewrite <- rsum_scal. apply rsum_ext. intros j Hj. rewrite HA by done. rewrite <- rsum_scal_r, <- rsum_scal. apply rsum_ext. intros. ring. }
  pose proof (rsum_single_le nb m (fun m => phi m * (v m * v m)) Hm) as HS. cbn beta in HS. rewrite HQ in HS.
  assert (phi m * (v m * v m) <= 0) as H0. { apply HS. intros k Hk. specialize (Hphi k Hk). pose proof (Rle_0_sqr (v k)). unfold Rsqr in *. nra. }
  change (v m = 0). assert (v m * v m = 0) as Hz by (pose proof (Rle_0_sqr (v m)) as Hs; unfold Rsqr in Hs; nra). apply Rmult_integral in Hz as [?|?]; done.
Qed.
Lemma clean_ok fuel pr pc M perm E perm' : Inv pr pc M perm -> clean_run fuel n pr pc tol M -> row_echelon ROps fuel n pr pc tol M perm = Some (E, perm') ->
  let dropped := perm' <$> zero_rows ROps n tol E in
  (forall x, (forall i, (i < n)%nat -> rsum n (fun j => eliminate_rows rlit dropped A i j * x j) = 0) -> forall i, (i < n)%nat -> x i = 0) /\
  (forall d, d ∈ dropped -> (d < n)%nat /\ exists c : nat -> R, (forall k, k ∈ dropped -> c k = 0) /\
     forall m, (m < nb)%nat -> 0 < phi m -> W m d = rsum n (fun k => c k * W m k)) /\
  (forall i, (i < pr)%nat -> perm i ∉ dropped).
Proof.
  intros H0 HC HR dropped. destruct (inv_run fuel pr pc M perm E perm' H0 HC HR) as (r & c & M' & p' & HI & HZ & Hle & Hkeep & HE).
  pose proof (fun d => dropped_iff r c M' p' E perm' d HI HZ HE) as HD. fold dropped in HD. clearbody dropped. clear HE HR H0.
  destruct (inv_perm _ _ _ _ HI) as [P1 P2]. pose proof (inv_le _ _ _ _ HI) as Hrn.
  split; [|split].
  - intros x Hx.
    assert (Hd : forall d, d ∈ dropped -> x d = 0).
    { intros d Hd. assert (d < n)%nat as Hdn by (apply HD in Hd as (i & Hi & <-); apply P1; lia). specialize (Hx d Hdn).
      rewrite (rsum_only n d) in Hx; [|done|].
      - unfold eliminate_rows in Hx. rewrite bool_decide_eq_true_2, bool_decide_eq_true_2 in Hx by auto. unfold rlit in Hx. lra.
      - intros l Hl Hne. unfold eliminate_rows. rewrite bool_decide_eq_true_2, bool_decide_eq_false_2 by auto. unfold rlit. lra. }
    assert (Hker : forall i, (i < n)%nat -> rsum n (fun j => A i j * x j) = 0).
    { assert (Hk : forall i, (i < n)%nat -> i ∉ dropped -> rsum n (fun j => A i j * x j) = 0).
      { intros i Hi Hni. rewrite <- (Hx i Hi). apply rsum_ext. intros j Hj. unfold eliminate_rows. case_bool_decide as Hc; [|done].
        destruct Hc as [|Hc]; [done|]. rewrite (Hd j Hc). lra. }
      intros i Hi. destruct (decide (i ∈ dropped)) as [Hin|]; [|by apply Hk]. apply HD in Hin as (k & Hkn & <-).
      destruct (dependent _ _ _ _ HI HZ k Hkn) as [cc Hcc].
      rewrite (rsum_ext n _ (fun j => rsum r (fun l => cc l * (A (p' l) j * x j)))).
      - rewrite rsum_swap. apply rsum_zero. intros l Hl. rewrite rsum_scal, Hk; [lra|apply P1; lia|]. intros (k' & Hk' & E')%HD. apply P2 in E'; lia.
      - intros j Hj. rewrite Hcc by done. rewrite <- rsum_scal_r. apply rsum_ext. intros. ring. }
    assert (Hy : forall k, (k < r)%nat -> x (p' k) = 0).
    { apply (independent _ _ _ _ HI HZ (fun k => x (p' k))). intros j Hj. rewrite <- (Hker j Hj). rewrite <- (rsum_perm _ _ _ _ HI HZ (fun i => A j i * x i)).
      rewrite (rsum_narrow r n); [|done|].
      - apply rsum_ext. intros k Hk. rewrite (moment_sym j (p' k)) by (try apply P1; lia). ring.
      - intros l Hl. rewrite (Hd (p' l)); [lra|]. apply HD. by exists l. }
    intros i Hi. destruct (perm_onto _ _ _ _ HI HZ i Hi) as (k & Hk & <-). destruct (decide (k < r)%nat); [by apply Hy|]. apply Hd, HD. exists k. split; [lia|done].
  - intros d (i & Hi & <-)%HD. split; [apply P1; lia|]. destruct (dependent _ _ _ _ HI HZ i Hi) as [cc Hcc].
    exists (fun k => rsum r (fun l => cc l * delta (p' l) k)). split.
    { intros k (i' & Hi' & <-)%HD. apply rsum_zero. intros l Hl. rewrite delta_other; [lra|]. intros E'. apply P2 in E'; lia. }
    intros m Hm Hpm. set (cf k := rsum r (fun l => cc l * delta (p' l) k)). set (u k := delta k (p' i) - cf k).
    assert (HU : forall g, rsum n (fun k => g k * u k) = g (p' i) - rsum r (fun l => cc l * g (p' l))).
    { intros g. unfold u. rewrite (rsum_ext n _ (fun k => g k * delta k (p' i) - g k * cf k)) by (intros; ring). rewrite rsum_minus, rsum_delta_r by (apply P1; lia). f_equal.
      rewrite (rsum_ext n _ (fun k => rsum r (fun l => cc l * (delta (p' l) k * g k)))).
      - rewrite rsum_swap. apply rsum_ext. intros l Hl. rewrite rsum_scal, rsum_delta_l by (apply P1; lia). done.
      - intros k Hk. unfold cf. rewrite <- rsum_scal. apply rsum_ext. intros. ring. }
    assert (Hu : forall j, (j < n)%nat -> rsum n (fun k => A j k * u k) = 0).
    { intros j Hj. rewrite (HU (A j)). rewrite (moment_sym j (p' i)) by (try apply P1; lia). rewrite Hcc by done. apply Rminus_diag_eq. apply rsum_ext. intros l Hl.
      rewrite (moment_sym j (p' l)) by (try apply P1; lia). done. }
    pose proof (moment_kernel u Hu m Hm Hpm) as HK. rewrite (HU (W m)) in HK.
    change (W m (p' i) = rsum n (fun k => cf k * W m k)). rewrite (rsum_ext n (fun k => cf k * W m k) (fun k => rsum r (fun l => cc l * (delta (p' l) k * W m k)))) by (intros; unfold cf; rewrite <- rsum_scal_r; apply rsum_ext; intros; ring).
    rewrite rsum_swap. rewrite (rsum_ext r _ (fun l => cc l * W m (p' l))); [lra|]. intros l Hl. rewrite rsum_scal, rsum_delta_l by (apply P1; lia). done.
  - intros i Hi (k & Hk & E')%HD. rewrite <- Hkeep in E' by done. apply P2 in E'; lia.
Qed.
End Echelon.

(** C46, the part that holds: if the run is clean then row reduction ends; the matrix it leaves over is regular; every dropped monomial is a
    combination of the kept ones at the neighbours of positive weight; and the constant monomial, whose row of the inverse is used, is kept if
    the tolerance is at most the total weight.  Over the real numbers.  What is missing: runs that are not clean, see [C46_moment_refuted]. *)
Theorem C46_clean_partial n nb phi V tol A : (0 < n)%nat -> 0 < tol -> (forall m, (m < nb)%nat -> 0 <= phi m) ->
  (forall i j, (i < n)%nat -> (j < n)%nat -> A i j = rsum nb (fun m => V m i * V m j * phi m)) ->
  clean_run (S (2 * n)) n 0 0 tol A ->
  exists E perm, row_echelon ROps (S (2 * n)) n 0 0 tol A Datatypes.id = Some (E, perm) /\
  let dropped : list nat := perm <$> zero_rows ROps n tol E in
  (forall x, (forall i, (i < n)%nat -> rsum n (fun j => eliminate_rows rlit dropped A i j * x j) = 0) -> forall i, (i < n)%nat -> x i = 0) /\
  (forall d, d ∈ dropped -> (d < n)%nat /\ exists c : nat -> R, (forall k, k ∈ dropped -> c k = 0) /\
     forall m, (m < nb)%nat -> 0 < phi m -> V m d = rsum n (fun k => c k * V m k)) /\
  ((forall m, (m < nb)%nat -> V m 0%nat = 1 /\ forall k, (k < n)%nat -> Rabs (V m k) <= 1) -> tol <= rsum nb phi -> 0%nat ∉ dropped).
Proof.
  intros Hn Htol Hphi HA HC. destruct (run_total n A tol (S (2 * n)) 0 0 A Datatypes.id ltac:(lia)) as (E & perm & HR). exists E, perm. split; [done|]. cbv zeta.
  destruct (clean_ok n A tol Htol nb phi V Hphi HA _ _ _ _ _ _ _ (inv_start n A tol) HC HR) as (G1 & G2 & _). split; [done|]. split; [done|].
  intros HV Hw.
  assert (A00 : A 0%nat 0%nat = rsum nb phi). { rewrite HA by lia. apply rsum_ext. intros m Hm. destruct (HV m Hm) as [-> _]. ring. }
  assert (Hcol : forall i, (i < n)%nat -> Rabs (A i 0%nat) <= A 0%nat 0%nat).
  { intros i Hi. rewrite A00, HA by lia. eapply Rle_trans; [apply rsum_abs|]. apply rsum_le. intros m Hm. destruct (HV m Hm) as [-> HV']. specialize (HV' i Hi).
    rewrite Rmult_1_r, Rabs_mult, (Rabs_right (phi m)) by (specialize (Hphi m Hm); lra). specialize (Hphi m Hm). nra. }
  assert (Hfp : find_pivot ROps n 0 0 A = 0%nat).
  { unfold find_pivot. rewrite Nat.sub_0_r. destruct n as [|n']; [lia|]. cbn [seq foldl]. rewrite t_abs_Rabs. real_ops.
    assert (0 < Rabs (A 0%nat 0%nat)) as Hp by (rewrite Rabs_right; lra). rewrite (proj2 (Rltb_lt _ _) Hp).
    assert (Forall (fun i => (i < S n')%nat) (seq 1 n')) as HF by (apply Forall_forall; intros i Hi%elem_of_seq; lia).
    revert HF. generalize (seq 1 n'). induction l as [|i l IH]; intros HF; [done|]. apply Forall_cons in HF as [Hi HF]. cbn [foldl].
    rewrite t_abs_Rabs. real_ops. rewrite (proj2 (Rltb_ge (Rabs (A 0%nat 0%nat)) (Rabs (A i 0%nat)))); [by apply IH|]. rewrite (Rabs_right (A 0%nat 0%nat)) by lra. by apply Hcol. }
  pose proof HR as HR1. pose proof HC as HC1. cbn [row_echelon clean_run] in HR1, HC1. rewrite bool_decide_eq_true_2 in HR1, HC1 by lia. cbv zeta in HR1, HC1. rewrite Hfp in HR1, HC1.
  assert (o_ltb ROps (t_abs ROps (A 0%nat 0%nat)) tol = false) as Hbig by (rewrite t_abs_Rabs, Rabs_right by lra; real_ops; apply Rltb_ge; lra).
  rewrite Hbig in HR1, HC1. destruct HC1 as [HC1|[_ HC1]]; [rewrite HC1 in A00 by lia; lra|].
  set (p1 := fun i => Datatypes.id (swap_index 0 0 i)) in HR1.
  destruct (clean_ok n A tol Htol nb phi V Hphi HA _ _ _ _ p1 _ _ (inv_step n A tol Htol 0 0 A Datatypes.id 0 Hn Hn Hn ltac:(lia) ltac:(rewrite Rabs_right; lra) (inv_start n A tol)) HC1 HR1) as (_ & _ & G3).
  apply (G3 0%nat). lia.
Qed.
(** C48 in the singular case: if both diagonalisations are complete, the run of row reduction is clean and the matrix left over is found regular
    by the pseudo-inverse, then constants are reproduced: the coefficients add up to one. *)
Theorem C48_clean fuel eps n nb phi V ES U : 0 < eps -> (0 < n)%nat ->
  let D := freeze_row ROps n (fun i => ES i i) in
  let tolerance := svd_tolerance ROps rlit eps n D in
  let moment := freeze ROps n (matrix_from_svd ROps n D U) in
  (forall m, (m < nb)%nat -> 0 <= phi m) -> (forall m, (m < nb)%nat -> V m 0%nat = 1 /\ forall k, (k < n)%nat -> Rabs (V m k) <= 1) ->
  symmetric_svd ROps rlit rsign eps fuel n (freeze ROps n (moment_matrix ROps nb phi V)) = Some (ES, U) ->
  is_singular ROps rlit eps n D = true -> (forall i j, (i < j < n)%nat -> ES i j = 0) ->
  0 < tolerance -> tolerance <= rsum nb phi -> clean_run (S (2 * n)) n 0 0 tolerance moment ->
  exists E perm, row_echelon ROps (S (2 * n)) n 0 0 tolerance moment Datatypes.id = Some (E, perm) /\
  let dropped : list nat := perm <$> zero_rows ROps n tolerance E in
  forall ES2 U2, symmetric_svd ROps rlit rsign eps fuel n (freeze ROps n (eliminate_rows rlit dropped moment)) = Some (ES2, U2) ->
  (forall i j, (i < j < n)%nat -> ES2 i j = 0) -> (forall i, (i < n)%nat -> kept eps n (fun i => ES2 i i) i = true) ->
  exists coeff, mls_solve ROps rlit rsign eps fuel n nb phi V = Some coeff /\ rsum nb coeff = 1.
Proof.
  intros He Hn D tolerance moment Hphi HV Hsvd Hsing Hoff Htol Hw HC.
  assert (HM : forall i k, (i < n)%nat -> (k < n)%nat -> moment i k = moment_matrix ROps nb phi V i k).
  { intros i k Hi Hk. destruct (C47_similarity fuel n eps _ ES U ltac:(lra) (moment_symmetric n nb phi V) Hsvd) as (_ & HA & _).
    specialize (HA i k Hi Hk). rewrite freeze_ok in HA by done. rewrite <- HA, conj_expand. unfold moment.
    rewrite freeze_ok, matrix_from_svd_ok by done. apply rsum_ext. intros l Hl.
    rewrite (rsum_ext n _ (fun m => delta m l * (U i l * D l * U k m))); [by rewrite rsum_delta|].
    intros m Hm. destruct (decide (m = l)) as [->|Hne].
    - rewrite delta_same, upper_le by lia. unfold D. rewrite freeze_row_ok by done. ring.
    - rewrite delta_other by done. assert (upper ES l m = 0) as ->; [|ring]. unfold upper. apply Hoff. lia. }
  destruct (C46_clean_partial n nb phi V tolerance moment Hn Htol Hphi HM HC) as (E & perm & HR & _ & _ & H0). exists E, perm. split; [done|].
  cbv zeta in H0 |- *. specialize (H0 HV Hw). intros ES2 U2 Hsvd2 Hoff2 Hkept.
  destruct (C48_singular fuel eps n nb phi V ES U E perm ES2 U2 ltac:(lra) Hn Hsvd Hsing HR Hsvd2 Hoff Hoff2 Hkept) as (coeff & Hc & HJ). exists coeff. split; [done|].
  specialize (HJ 0%nat Hn H0). rewrite delta_same in HJ. rewrite <- HJ. apply rsum_ext. intros m Hm. destruct (HV m Hm) as [-> _]. ring.
Qed.
(** Two neighbours at the same place, half a radius from the target: the run is clean, the linear monomial depends on the constant. *)
Example C46_clean_partial_example : let n := 2%nat in let nb := 2%nat in let phi := fun _ : nat => 1 in
  let V := fun _ j : nat => if decide (j = 0%nat) then 1 else 1 / 2 in let tol := 1 / 100 in
  let A := freeze ROps n (moment_matrix ROps nb phi V) in
  (0 < n)%nat /\ 0 < tol /\ (forall m, (m < nb)%nat -> 0 <= phi m) /\
  (forall i j, (i < n)%nat -> (j < n)%nat -> A i j = rsum nb (fun m => V m i * V m j * phi m)) /\
  clean_run (S (2 * n)) n 0 0 tol A /\
  (forall m, (m < nb)%nat -> V m 0%nat = 1 /\ forall k, (k < n)%nat -> Rabs (V m k) <= 1) /\ tol <= rsum nb phi.
Proof.
  intros n nb phi V tol A. unfold n, nb.
  assert (HA : forall i j, (i < 2)%nat -> (j < 2)%nat -> A i j = rsum 2 (fun m => V m i * V m j * phi m)) by (intros i j Hi Hj; unfold A; by rewrite freeze_ok).
  assert (A 0%nat 0%nat = 2 /\ A 0%nat 1%nat = 1 /\ A 1%nat 0%nat = 1 /\ A 1%nat 1%nat = 1 / 2) as (A00 & A01 & A10 & A11).
  { rewrite !HA by lia. rewrite !rsum_S, !rsum_0. unfold V, phi. rewrite !decide_True, !decide_False by lia. split_and!; lra. }
  clearbody A.
  split; [lia|]. split; [unfold tol; lra|]. split; [intros; unfold phi; lra|]. split; [done|]. split; [|split].
  - cbn [clean_run Nat.mul Nat.add]. rewrite bool_decide_eq_true_2 by lia.
    assert (find_pivot ROps 2 0 0 A = 0%nat) as ->.
    { unfold find_pivot. cbn [seq foldl Nat.sub]. rewrite !t_abs_Rabs, A00, (Rabs_right 2) by lra. real_ops. rewrite (proj2 (Rltb_lt 0 2)) by lra.
      rewrite ?t_abs_Rabs, ?A10, ?(Rabs_right 1) by lra. by rewrite (proj2 (Rltb_ge 2 1)) by lra. }
    right. rewrite t_abs_Rabs, A00, Rabs_right by lra. real_ops. rewrite (proj2 (Rltb_ge 2 tol)) by (unfold tol; lra). split; [lia|].
    change (2 * 2)%nat with 4%nat. cbn [clean_run]. rewrite bool_decide_eq_true_2 by lia. left. intros i j Hi Hj. assert (i = 1%nat) as -> by lia. rewrite freeze_ok by lia. unfold eliminate_below. rewrite !freeze_ok by lia.
    change (swap_index 0 0 0) with 0%nat. change (swap_index 0 0 1) with 1%nat. rewrite bool_decide_eq_false_2 by lia.
    assert (j = 0 \/ j = 1)%nat as [-> | ->] by lia; [by rewrite bool_decide_eq_true_2|]. rewrite !bool_decide_eq_false_2 by lia. real_ops. rewrite A00, A01, A10, A11. lra.
  - intros m Hm. split; [done|]. intros k Hk. unfold V. case_decide; rewrite Rabs_right; lra.
  - rewrite !rsum_S, rsum_0. unfold phi, tol. lra.
Qed.

(** One neighbour at the target: all hypotheses of [C48_clean] hold, and so do those on the second diagonalisation. *)
Example C48_clean_example : let n := 2%nat in let nb := 1%nat in let phi := fun _ : nat => 1 in let V := fun _ j : nat => if decide (j = 0%nat) then 1 else 0 in
  exists ES U E perm ES2 U2,
  let D := freeze_row ROps n (fun i => ES i i) in
  let tolerance := svd_tolerance ROps rlit (1 / 100) n D in
  let moment := freeze ROps n (matrix_from_svd ROps n D U) in
  let dropped : list nat := perm <$> zero_rows ROps n tolerance E in
  (forall m, (m < nb)%nat -> 0 <= phi m) /\ (forall m, (m < nb)%nat -> V m 0%nat = 1 /\ forall k, (k < n)%nat -> Rabs (V m k) <= 1) /\
  symmetric_svd ROps rlit rsign (1 / 100) 1 n (freeze ROps n (moment_matrix ROps nb phi V)) = Some (ES, U) /\
  is_singular ROps rlit (1 / 100) n D = true /\ (forall i j, (i < j < n)%nat -> ES i j = 0) /\
  0 < tolerance /\ tolerance <= rsum nb phi /\ clean_run (S (2 * n)) n 0 0 tolerance moment /\
  row_echelon ROps (S (2 * n)) n 0 0 tolerance moment Datatypes.id = Some (E, perm) /\
  symmetric_svd ROps rlit rsign (1 / 100) 1 n (freeze ROps n (eliminate_rows rlit dropped moment)) = Some (ES2, U2) /\
  (forall i j, (i < j < n)%nat -> ES2 i j = 0) /\ (forall i, (i < n)%nat -> kept (1 / 100) n (fun i => ES2 i i) i = true).
Proof.
  intros n nb phi V. destruct C48_singular_example as (ES & U & E & perm & ES2 & U2 & H1 & H2 & H3 & H4 & H5 & H6 & H7 & H8).
  exists ES, U, E, perm, ES2, U2. cbv zeta.
  pose proof (svd_diagonal (1 / 100) (freeze ROps 2 (moment_matrix ROps 1 (fun _ => 1) (fun _ j => if decide (j = 0%nat) then 1 else 0))) ltac:(lra)) as HD.
  rewrite H1 in HD. assert (HE : ES = freeze ROps 2 (moment_matrix ROps 1 (fun _ => 1) (fun _ j => if decide (j = 0%nat) then 1 else 0)) /\ U = identity rlit).
  { rewrite freeze_ok in HD by lia. specialize (HD ltac:(unfold moment_matrix, sum_below; cbn; repeat case_decide; try done; real_ops; lra)). by injection HD as -> ->. }
  destruct HE as [HE HU]. assert (ES 0%nat 0%nat = 1 /\ ES 1%nat 1%nat = 0) as [E00 E11].
  { rewrite HE, !freeze_ok by lia. unfold moment_matrix, sum_below. cbn. real_ops. repeat case_decide; try done; split; lra. }
  set (D := freeze_row ROps n (fun i => ES i i)) in *.
  assert (D 0%nat = 1 /\ D 1%nat = 0) as [D0 D1] by (unfold D, n; rewrite !freeze_row_ok by lia; done).
  assert (HT : svd_tolerance ROps rlit (1 / 100) n D = 2 / 100).
  { unfold svd_tolerance, max_eigen, n. cbn [seq foldl]. rewrite !t_abs_Rabs. unfold kmax, rlit. real_ops. rewrite D0, D1, Rabs_R0, Rabs_R1.
    rewrite (proj2 (Rltb_ge 1 0)), (proj2 (Rltb_lt 0 1)) by lra. change (IZR (Z.of_nat 2)) with 2. lra. }
  set (moment := freeze ROps n (matrix_from_svd ROps n D U)) in *.
  assert (moment 0%nat 0%nat = 1 /\ moment 0%nat 1%nat = 0 /\ moment 1%nat 0%nat = 0 /\ moment 1%nat 1%nat = 0) as (N00 & N01 & N10 & N11).
  { unfold moment, n. rewrite HU, !freeze_ok by lia. rewrite !matrix_from_svd_ok, !rsum_S, !rsum_0, D0, D1. unfold identity, rlit. repeat case_bool_decide; try done; split_and!; lra. }
  split; [intros; unfold phi; lra|]. split. { intros m _. split; [done|]. intros k _. unfold V. case_decide; rewrite ?Rabs_R1, ?Rabs_R0; lra. }
  split; [done|]. split; [done|]. split; [done|]. split; [rewrite HT; lra|]. split; [rewrite HT; unfold nb, phi; rewrite rsum_S, rsum_0; lra|].
  split; [|split; [done|split; [done|split; done]]].
  clearbody moment. rewrite HT. unfold n. change (S (2 * 2)) with 5%nat. cbn [clean_run]. rewrite bool_decide_eq_true_2 by lia.
  assert (find_pivot ROps 2 0 0 moment = 0%nat) as ->.
  { unfold find_pivot. cbn [seq foldl Nat.sub]. rewrite !t_abs_Rabs, N00, Rabs_R1. real_ops. rewrite (proj2 (Rltb_lt 0 1)) by lra.
    rewrite ?t_abs_Rabs, ?N10, ?Rabs_R0. by rewrite (proj2 (Rltb_ge 1 0)) by lra. }
  right. rewrite t_abs_Rabs, N00, Rabs_R1. real_ops. rewrite (proj2 (Rltb_ge 1 (2 / 100))) by lra. split; [lia|].
  rewrite bool_decide_eq_true_2 by lia. left. intros i j Hi Hj. assert (i = 1%nat) as -> by lia. rewrite freeze_ok by lia. unfold eliminate_below. rewrite !freeze_ok by lia.
  change (swap_index 0 0 0) with 0%nat. change (swap_index 0 0 1) with 1%nat. rewrite bool_decide_eq_false_2 by lia.
  assert (j = 0 \/ j = 1)%nat as [-> | ->] by lia; [by rewrite bool_decide_eq_true_2|]. rewrite !bool_decide_eq_false_2 by lia. real_ops. rewrite N00, N01, N10, N11. lra.
Qed.

Print Assumptions C46_clean_partial.
Print Assumptions C48_clean.
