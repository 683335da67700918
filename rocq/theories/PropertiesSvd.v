(** C47: the Jacobi diagonalisation and the pseudo-inverse over the real numbers. *)
From Coq Require Import Reals Lra Psatz.
From Verif Require Import Base GeomOps BoxModel InterpModel PropertiesRayReal PropertiesCrbf SvdProof.
Local Open Scope R_scope.

(** ** Specification *)
Definition SameMatrix (n : nat) (A B : nat -> nat -> R) : Prop := forall i j, (i < n)%nat -> (j < n)%nat -> A i j = B i j.
Definition Symmetric (n : nat) (A : nat -> nat -> R) : Prop := forall i j, (i < n)%nat -> (j < n)%nat -> A i j = A j i.
Definition mmul (n : nat) (A B : nat -> nat -> R) : nat -> nat -> R := fun i j => rsum n (fun k => A i k * B k j).
Definition transpose (A : nat -> nat -> R) : nat -> nat -> R := fun i j => A j i.
Definition Orthogonal (n : nat) (U : nat -> nat -> R) : Prop := SameMatrix n (mmul n U (transpose U)) delta /\ SameMatrix n (mmul n (transpose U) U) delta.
Definition diagonal (D : nat -> R) : nat -> nat -> R := fun i j => if bool_decide (i = j) then D i else 0.

(** ** The loop *)
Lemma conj_expand n (U S : nat -> nat -> R) i j :
  mmul n (mmul n U S) (transpose U) i j = rsum n (fun k => rsum n (fun l => U i k * S k l * U j l)).
Proof.
  unfold mmul, transpose. rewrite rsum_swap. apply rsum_ext. intros l _.
  by rewrite <- rsum_scal_r.
Qed.
Definition Inv (n : nat) (A0 A U : nat -> nat -> R) : Prop :=
  SameMatrix n (mmul n (mmul n U (upper A)) (transpose U)) A0 /\ Orthogonal n U.

Definition frobenius (n : nat) (A : nat -> nat -> R) : R := rsum n (fun i => rsum n (fun j => upper A i j * upper A i j)).
Definition diag2 (n : nat) (A : nat -> nat -> R) : R := rsum n (fun i => A i i * A i i).
(** The sum of the squares off the diagonal. *)
Definition off (n : nat) (A : nat -> nat -> R) : R := frobenius n A - diag2 n A.
Lemma off_nonneg n A : 0 <= off n A.
Proof.
  unfold off, frobenius, diag2. rewrite <- rsum_minus. apply rsum_nonneg. intros i Hi.
  pose proof (rsum_single_le n i (fun j => upper A i j * upper A i j) Hi) as H. cbn beta in H.
  rewrite (upper_le A i i) in H by lia. assert (A i i * A i i <= rsum n (fun j => upper A i j * upper A i j)); [|lra].
  apply H. intros. nra.
Qed.

Section Step.
Context (n p q : nat) (x y c s : R) (A U : nat -> nat -> R).
Context (Hpq : (p < q)%nat) (Hq : (q < n)%nat) (Hcs : c * c + s * s = 1)
  (Hx : c * (c * A p p + s * A p q) + s * (c * A p q + s * A q q) = x)
  (Hy : - s * (- s * A p p + c * A p q) + c * (- s * A p q + c * A q q) = y)
  (Hz : c * (- s * A p p + c * A p q) + s * (- s * A p q + c * A q q) = 0)
  (Hxy : x * x + y * y = A p p * A p p + A q q * A q q + 2 * (A p q * A p q)).
Notation A' := (freeze ROps n (rotate_matrix ROps p q x y c s A)).
Notation U' := (freeze ROps n (rotate_unitary ROps p q c s U)).
Notation rt := (rot p q c s).

Lemma step_A i j : (i < n)%nat -> (j < n)%nat -> upper A' i j = rt (fun k => rt (upper A k) j) i.
Proof using Hpq Hx Hy Hz.
  intros Hi Hj. rewrite <- (rotate_matrix_rot A p q x y c s Hpq Hx Hy Hz).
  apply (upper_ext _ _ n); [|done..]. intros. by apply freeze_ok.
Qed.
Lemma step_U i j : (i < n)%nat -> (j < n)%nat -> U' i j = rt (U i) j.
Proof. intros Hi Hj. rewrite freeze_ok by done. done. Qed.

Lemma step_Inv A0 : Inv n A0 A U -> Inv n A0 A' U'.
Proof using Hpq Hq Hcs Hx Hy Hz.
  intros (HA & HO1 & HO2). assert (Hp : (p < n)%nat) by lia. assert (Hne : p <> q) by lia. split_and!; [|split].
  - intros i j Hi Hj. rewrite <- (HA i j Hi Hj), !conj_expand.
    rewrite <- (rot_bilinear n p q c s Hp Hq Hne Hcs (U i) (U j) (upper A)).
    apply rsum_ext. intros k Hk. apply rsum_ext. intros l Hl. by rewrite step_A, !step_U.
  - intros i j Hi Hj. rewrite <- (HO1 i j Hi Hj). unfold mmul, transpose.
    rewrite <- (rot_dot n p q c s Hp Hq Hne Hcs (U i) (U j)). apply rsum_ext. intros k Hk. by rewrite !step_U.
  - intros k l Hk Hl. unfold mmul, transpose.
    rewrite (rsum_ext n _ (fun i => rt (U i) k * rt (U i) l)) by (intros; by rewrite !step_U).
    (* both rotations move out of the sum *)
    assert (E : forall k' l', (k' < n)%nat -> (l' < n)%nat -> rsum n (fun i => U i k' * U i l') = delta k' l').
    { intros k' l' Hk' Hl'. by apply (HO2 k' l'). }
    rewrite <- (rot_delta p q c s Hne Hcs k l).
    assert (G1 : forall k', (k' < n)%nat -> rsum n (fun i => U i k' * rt (U i) l) = rt (delta k') l).
    { intros k' Hk'. unfold rot. case_bool_decide; [|case_bool_decide].
      - rewrite <- !E by done. rewrite <- !rsum_scal, <- rsum_plus. apply rsum_ext. intros; ring.
      - rewrite <- !E by done. rewrite <- !rsum_scal, <- rsum_plus. apply rsum_ext. intros; ring.
      - by apply E. }
    transitivity (rt (fun k' => rsum n (fun i => U i k' * rt (U i) l)) k).
    + rewrite (rot_sum p q c s n (fun i => rt (U i) l) (fun k' i => U i k') k). apply rsum_ext. intros i _. f_equal.
    + apply (rot_ext n p q c s Hp Hq); [|done]. exact G1.
Qed.

Lemma step_off : off n A' = off n A - 2 * (A p q * A p q).
Proof using Hpq Hq Hcs Hx Hy Hz Hxy.
  clear U. assert (Hp : (p < n)%nat) by lia. assert (Hne : p <> q) by lia. unfold off.
  assert (HF : frobenius n A' = frobenius n A).
  { unfold frobenius.
    rewrite (rsum_ext n _ (fun i => rsum n (fun j => rt (fun k => upper A k j) i * rt (fun k => upper A k j) i))).
    - rewrite rsum_swap, (rsum_swap n n (fun i j => upper A i j * upper A i j)). apply rsum_ext. intros j _.
      apply (rot_dot n p q c s Hp Hq Hne Hcs).
    - intros i Hi. rewrite (rsum_ext n _ (fun j => rt (fun j => rt (fun k => upper A k j) i) j * rt (fun j => rt (fun k => upper A k j) i) j)).
      + apply (rot_dot n p q c s Hp Hq Hne Hcs).
      + intros j Hj. rewrite step_A by done.
        assert (rt (λ k : nat, rt (upper A k) j) i = rt (λ j0 : nat, rt (λ k : nat, upper A k j0) i) j) as ->; [|done].
        unfold rot. repeat case_bool_decide; ring. }
  assert (HD : diag2 n A' = diag2 n A + 2 * (A p q * A p q)).
  { unfold diag2. transitivity (rsum n (fun i => A i i * A i i + delta i p * (2 * (A p q * A p q)))).
    2: { by rewrite rsum_plus, (rsum_delta n p (fun _ => 2 * (A p q * A p q))). }
    assert (HA' : forall i, (i < n)%nat -> A' i i = rt (fun k => rt (upper A k) i) i).
    { intros i Hi. rewrite <- (step_A i i) by done. by rewrite upper_le. }
    assert (E : upper A p p = A p p /\ upper A q q = A q q /\ upper A p q = A p q /\ upper A q p = A p q).
    { rewrite (upper_sym A q p). by rewrite !upper_le by lia. }
    destruct E as (Epp & Eqq & Epq & Eqp).
    apply (rsum_two n p q); [done..| |].
    - rewrite !HA' by done. rewrite delta_same, delta_other by done. rewrite rot_p, !rot_p, rot_q, !rot_q by done.
      rewrite Epp, Eqq, Epq, Eqp.
      replace (c * (c * A p p + s * A p q) + s * (c * A p q + s * A q q)) with x.
      replace (- s * (- s * A p p + c * A p q) + c * (- s * A p q + c * A q q)) with y. lra.
    - intros k Hk H1 H2. rewrite HA' by done. rewrite !rot_other, delta_other by done. rewrite upper_le by lia. ring. }
  lra.
Qed.
End Step.

Section Loop.
Context (eps : R) (Heps : 0 <= eps).
Notation step := (svd_step ROps rlit rsign eps).
Notation loop := (svd_loop ROps rlit rsign eps).

Lemma svd_step_some n A U A' U' : step n A U = Some (A', U') ->
  (forall A0, Inv n A0 A U -> Inv n A0 A' U') /\ off n A' < off n A - 2 * (eps * eps).
Proof using Heps.
  unfold svd_step. destruct (argmax_upper ROps n A) as [[m p] q] eqn:EA. real_ops.
  destruct (Rleb m eps) eqn:EL; [done|]. assert (Hm : eps < m). { destruct (Rle_dec m eps) as [H|H]; [apply Rleb_le in H; congruence|lra]. }
  destruct (argmax_ok n A m p q EA) as [_ Hpq]. destruct (Hpq ltac:(lra)) as [[Hp Hq] Hv].
  destruct (jacobi_coefficients ROps rlit rsign (A p p) (A p q) (A q q)) as [[[x y] c] s] eqn:EJ.
  assert (Hb : A p q <> 0). { intros E. rewrite E, Rabs_R0 in Hv. lra. }
  destruct (jacobi_ok _ _ _ _ _ _ _ Hb EJ) as (Hcs & Hx & Hy & Hz & Hxy).
  intros [= <- <-]. split.
  - intros A0 HI. by apply step_Inv.
  - rewrite (step_off n p q x y c s A Hp Hq Hcs Hx Hy Hz Hxy).
    assert (eps * eps < A p q * A p q); [|lra].
    replace (A p q * A p q) with (m * m); [nra|]. rewrite <- Hv, <- Rabs_mult. apply Rabs_right. nra.
Qed.
Lemma svd_step_none n A U : step n A U = None -> forall i j, (i < j < n)%nat -> Rabs (A i j) <= eps.
Proof using.
  unfold svd_step. destruct (argmax_upper ROps n A) as [[m p] q] eqn:EA. real_ops.
  destruct (Rleb m eps) eqn:EL; [|by destruct (jacobi_coefficients ROps rlit rsign (A p p) (A p q) (A q q)) as [[[x y] c] s]].
  intros _ i j Hij. apply Rleb_le in EL. destruct (argmax_ok n A m p q EA) as [H _]. specialize (H i j Hij). lra.
Qed.
Lemma svd_loop_ok fuel n A0 A U A' U' : Inv n A0 A U -> loop fuel n A U = Some (A', U') ->
  Inv n A0 A' U' /\ forall i j, (i < j < n)%nat -> Rabs (A' i j) <= eps.
Proof using Heps.
  revert A U. induction fuel as [|fuel IH]; intros A U HI; [done|]. cbn [svd_loop].
  destruct (step n A U) as [[A1 U1]|] eqn:E.
  - apply IH. apply (svd_step_some n A U A1 U1 E). done.
  - intros [= <- <-]. split; [done|]. by eapply svd_step_none.
Qed.
Lemma svd_loop_ends fuel n A U : 0 < eps -> off n A < INR fuel * (2 * (eps * eps)) -> loop fuel n A U <> None.
Proof using Heps.
  intros He. revert A U. induction fuel as [|fuel IH]; intros A U H.
  - cbn in H. pose proof (off_nonneg n A). lra.
  - cbn [svd_loop]. destruct (step n A U) as [[A1 U1]|] eqn:E; [|done].
    apply IH. destruct (svd_step_some n A U A1 U1 E) as [_ Hd]. rewrite S_INR in H. lra.
Qed.
End Loop.

Lemma Inv_start n A0 : Symmetric n A0 -> Inv n A0 A0 (identity rlit).
Proof.
  intros Hs. assert (E : forall i j, identity rlit i j = delta i j).
  { intros i j. unfold identity, delta, rlit. by case_bool_decide. }
  split_and!; [|split].
  - intros i j Hi Hj. rewrite conj_expand.
    rewrite (rsum_ext n _ (fun k => delta i k * upper A0 k j)).
    + rewrite rsum_delta_l by done. unfold upper. destruct (Nat.le_ge_cases i j) as [H|H].
      * by rewrite Nat.min_l, Nat.max_r.
      * rewrite Nat.min_r, Nat.max_l by done. by apply Hs.
    + intros k _. rewrite (rsum_ext n _ (fun l => delta j l * (delta i k * upper A0 k l))).
      * by rewrite rsum_delta_l.
      * intros l _. rewrite (E i k), (E j l). ring.
  - intros i j Hi Hj. unfold mmul, transpose. rewrite (rsum_ext n _ (fun k => delta i k * delta j k)).
    + rewrite rsum_delta_l by done. apply delta_sym.
    + intros. by rewrite !E.
  - intros i j Hi Hj. unfold mmul, transpose. rewrite (rsum_ext n _ (fun k => delta k i * delta k j)).
    + by rewrite rsum_delta.
    + intros. by rewrite !E.
Qed.

(** ** C47 *)
(** However many rotations were made, U is orthogonal and U ES U^T is still the input matrix; the loop only ends when
    every entry of ES off the diagonal is at most epsilon. *)
Theorem C47_similarity fuel n eps A0 ES U : 0 <= eps -> Symmetric n A0 ->
  symmetric_svd ROps rlit rsign eps fuel n A0 = Some (ES, U) ->
  Orthogonal n U /\ SameMatrix n (mmul n (mmul n U (upper ES)) (transpose U)) A0 /\
  forall i j, (i < j < n)%nat -> Rabs (ES i j) <= eps.
Proof.
  intros He Hs H. destruct (svd_loop_ok eps He fuel n A0 A0 (identity rlit) ES U (Inv_start n A0 Hs) H) as [[H1 H2] H3]. done.
Qed.
(** In exact arithmetic the loop ends, whatever the matrix. *)
Theorem C47_terminates n eps A0 : 0 < eps -> exists fuel, symmetric_svd ROps rlit rsign eps fuel n A0 <> None.
Proof.
  intros He. assert (0 < 2 * (eps * eps)) as H by nra.
  pose proof (off_nonneg n A0) as H0. set (x := off n A0 / (2 * (eps * eps))).
  assert (Hx : off n A0 = x * (2 * (eps * eps))) by (unfold x; field; lra).
  assert (0 <= x) by (unfold x; apply Rmult_le_pos; [done|left; by apply Rinv_0_lt_compat]).
  destruct (archimed x) as [Hup _]. exists (Z.to_nat (up x)). apply svd_loop_ends; [lra|done|].
  rewrite INR_IZR_INZ, Z2Nat.id; [rewrite Hx; nra|]. apply le_IZR. lra.
Qed.

(** ** The pseudo-inverse *)
Lemma matrix_from_svd_ok n D U i j : matrix_from_svd ROps n D U i j = rsum n (fun k => U i k * D k * U j k).
Proof.
  unfold matrix_from_svd. destruct (Nat.le_ge_cases i j) as [H|H].
  - by rewrite Nat.min_l, Nat.max_r.
  - rewrite Nat.min_r, Nat.max_l by done. apply rsum_ext. intros. real_ops. ring.
Qed.
(** Products of matrices with the same eigenvectors. *)
Lemma svd_product n U D E i j : Orthogonal n U -> (i < n)%nat -> (j < n)%nat ->
  rsum n (fun m => rsum n (fun k => U i k * D k * U m k) * rsum n (fun k => U m k * E k * U j k)) =
  rsum n (fun k => U i k * (D k * E k) * U j k).
Proof.
  intros [_ HO] Hi Hj.
  rewrite (rsum_ext n _ (fun m => rsum n (fun k => rsum n (fun l => U i k * D k * U m k * (U m l * E l * U j l))))).
  2: { intros m _. rewrite <- rsum_scal_r. apply rsum_ext. intros k _. by rewrite <- rsum_scal. }
  rewrite rsum_swap. apply rsum_ext. intros k Hk.
  rewrite rsum_swap.
  rewrite (rsum_ext n _ (fun l => delta l k * (U i k * D k * (E l * U j l)))).
  - rewrite rsum_delta by done. ring.
  - intros l Hl. rewrite (delta_sym l k), <- (HO k l Hk Hl). unfold mmul, transpose.
    rewrite <- rsum_scal_r. apply rsum_ext. intros. ring.
Qed.
Definition kept (eps : R) (n : nat) (D : nat -> R) (i : nat) : bool := negb (Rleb (Rabs (D i)) (svd_tolerance ROps rlit eps n D)).
Definition inverted (eps : R) (n : nat) (D : nat -> R) (i : nat) : R := if kept eps n D i then 1 / D i else 0.
Lemma pseudo_inverse_ok eps n D U i j :
  pseudo_inverse ROps rlit eps n D U i j = rsum n (fun k => U i k * inverted eps n D k * U j k).
Proof.
  unfold pseudo_inverse. rewrite matrix_from_svd_ok. apply rsum_ext. intros k Hk. rewrite freeze_row_ok by done.
  unfold inverted, kept. real_ops. rewrite t_abs_Rabs. by destruct (Rleb (Rabs (D k)) _).
Qed.
Lemma max_eigen_nonneg n D : 0 <= max_eigen ROps n D.
Proof.
  unfold max_eigen. assert (G : forall l m, 0 <= m -> 0 <= foldl (fun m i => kmax ROps (t_abs ROps (D i)) m) m l).
  { induction l as [|a l IH]; intros m Hm; [done|]. cbn. apply IH. unfold kmax. real_ops. rewrite t_abs_Rabs.
    destruct (Rltb _ _); [done|apply Rabs_pos]. }
  apply G. real_ops. lra.
Qed.
Lemma kept_nonzero eps n D i : 0 <= eps -> kept eps n D i = true -> D i <> 0.
Proof.
  intros He Hk E. unfold kept in Hk. apply negb_true_iff in Hk. rewrite E, Rabs_R0 in Hk.
  assert (0 <= svd_tolerance ROps rlit eps n D) as H.
  { unfold svd_tolerance, rlit. real_ops. apply Rmult_le_pos; [|done]. apply Rmult_le_pos; [|apply max_eigen_nonneg].
    rewrite <- INR_IZR_INZ. apply pos_INR. }
  apply Rleb_le in H. congruence.
Qed.

(** The four Moore-Penrose conditions, for the matrix of the kept singular values. *)
Theorem C47_moore_penrose n eps D U : 0 <= eps -> Orthogonal n U ->
  let M := mmul n (mmul n U (diagonal (fun i => if kept eps n D i then D i else 0))) (transpose U) in
  let P := pseudo_inverse ROps rlit eps n D U in
  SameMatrix n (mmul n (mmul n M P) M) M /\ SameMatrix n (mmul n (mmul n P M) P) P /\
  Symmetric n (mmul n M P) /\ Symmetric n (mmul n P M).
Proof.
  intros He HO M P. set (D' := fun i => if kept eps n D i then D i else 0) in M. set (I' := inverted eps n D).
  assert (HM : SameMatrix n M (fun i j => rsum n (fun k => U i k * D' k * U j k))).
  { intros i j Hi Hj. unfold M. rewrite conj_expand. apply rsum_ext. intros k Hk.
    rewrite (rsum_ext n _ (fun l => delta l k * (U i k * D' k * U j l))).
    - by rewrite rsum_delta.
    - intros l _. unfold diagonal, delta. destruct (decide (k = l)) as [->|H].
      + rewrite !bool_decide_true by done. ring.
      + rewrite !bool_decide_false by done. ring. }
  assert (HP : SameMatrix n P (fun i j => rsum n (fun k => U i k * I' k * U j k))).
  { intros i j _ _. apply pseudo_inverse_ok. }
  assert (Hmul : forall X Y F G, SameMatrix n X (fun i j => rsum n (fun k => U i k * F k * U j k)) ->
    SameMatrix n Y (fun i j => rsum n (fun k => U i k * G k * U j k)) ->
    SameMatrix n (mmul n X Y) (fun i j => rsum n (fun k => U i k * (F k * G k) * U j k))).
  { intros X Y F G HX HY i j Hi Hj. unfold mmul. rewrite <- (svd_product n U F G i j HO Hi Hj).
    apply rsum_ext. intros m Hm. by rewrite HX, HY. }
  assert (Hsym : forall X F, SameMatrix n X (fun i j => rsum n (fun k => U i k * F k * U j k)) -> Symmetric n X).
  { intros X F HX i j Hi Hj. rewrite !HX by done. apply rsum_ext. intros. ring. }
  assert (Hc : forall k, D' k * I' k * D' k = D' k /\ I' k * D' k * I' k = I' k).
  { intros k. unfold D', I', inverted. destruct (kept eps n D k) eqn:Ek; [|lra].
    pose proof (kept_nonzero eps n D k He Ek). split; field; done. }
  pose proof (Hmul _ _ _ _ HM HP) as HMP. pose proof (Hmul _ _ _ _ HP HM) as HPM.
  split_and!.
  - intros i j Hi Hj. rewrite (Hmul _ _ _ _ HMP HM i j Hi Hj), HM by done. apply rsum_ext. intros k _. by destruct (Hc k) as [-> _].
  - intros i j Hi Hj. rewrite (Hmul _ _ _ _ HPM HP i j Hi Hj), HP by done. apply rsum_ext. intros k _. by destruct (Hc k) as [_ ->].
  - apply (Hsym _ _ HMP).
  - apply (Hsym _ _ HPM).
Qed.

(** When every singular value is kept, the product of the result with the input matrix differs from the identity by at
    most n^2 r / d, where r bounds the entries left off the diagonal and d the singular values. *)
Lemma orthogonal_bound n U i k : Orthogonal n U -> (i < n)%nat -> (k < n)%nat -> Rabs (U i k) <= 1.
Proof.
  intros [HO _] Hi Hk. pose proof (HO i i Hi Hi) as H. rewrite delta_same in H. unfold mmul, transpose in H.
  pose proof (rsum_single_le n k (fun k => U i k * U i k) Hk ltac:(intros; nra)) as H1. cbn beta in H1.
  rewrite H in H1. rewrite <- (Rabs_R1). apply Rsqr_le_abs_0. unfold Rsqr. lra.
Qed.
Lemma inverse_error n eps ES U r d : 0 <= eps -> Orthogonal n U ->
  let D := fun i => ES i i in
  (forall i, (i < n)%nat -> kept eps n D i = true) ->
  0 < d -> 0 <= r -> (forall i, (i < n)%nat -> d <= Rabs (D i)) ->
  (forall i j, (i < j < n)%nat -> Rabs (ES i j) <= r) ->
  forall i j, (i < n)%nat -> (j < n)%nat ->
  Rabs (mmul n (pseudo_inverse ROps rlit eps n D U) (mmul n (mmul n U (upper ES)) (transpose U)) i j - delta i j) <= INR n * INR n * (r / d).
Proof.
  intros He HO D HK Hd Hr0 HD Hr i j Hi Hj.
  assert (HD0 : forall k, (k < n)%nat -> D k <> 0).
  { intros k Hk E. specialize (HD k Hk). rewrite E, Rabs_R0 in HD. lra. }
  assert (E : mmul n (pseudo_inverse ROps rlit eps n D U) (mmul n (mmul n U (upper ES)) (transpose U)) i j - delta i j =
    rsum n (fun k => rsum n (fun l => U i k * (1 / D k) * (if bool_decide (k = l) then 0 else upper ES k l) * U j l))).
  { unfold mmul at 1.
    rewrite (rsum_ext n _ (fun m => rsum n (fun k => rsum n (fun k' => rsum n (fun l => U i k * (1 / D k) * U m k * (U m k' * upper ES k' l * U j l)))))).
    2: { intros m _. rewrite conj_expand, pseudo_inverse_ok, <- rsum_scal_r. apply rsum_ext. intros k Hk.
         rewrite <- rsum_scal. apply rsum_ext. intros k' _. rewrite <- rsum_scal. apply rsum_ext. intros l _.
         unfold inverted. rewrite HK by done. ring. }
    rewrite rsum_swap.
    destruct HO as [HO1 HO2]. rewrite <- (HO1 i j Hi Hj). unfold mmul, transpose. rewrite <- rsum_minus. apply rsum_ext. intros k Hk.
    rewrite rsum_swap.
    rewrite (rsum_ext n _ (fun k' => delta k' k * rsum n (fun l => U i k * (1 / D k) * upper ES k' l * U j l))).
    2: { intros k' Hk'. rewrite (delta_sym k' k), <- (HO2 k k' Hk Hk'). unfold mmul, transpose. rewrite rsum_swap, <- rsum_scal.
         apply rsum_ext. intros l _. rewrite <- rsum_scal_r. apply rsum_ext. intros m _. ring. }
    rewrite rsum_delta by done.
    replace (U i k * U j k) with (rsum n (fun l => delta l k * (U i k * U j l))) by (by rewrite rsum_delta).
    rewrite <- rsum_minus. apply rsum_ext. intros l Hl. unfold delta. destruct (decide (k = l)) as [->|H].
    - rewrite !bool_decide_true by done. rewrite upper_le by lia. fold (D l). field. by apply HD0.
    - rewrite !bool_decide_false by done. ring. }
  rewrite E. clear E.
  eapply Rle_trans; [apply rsum_abs|].
  rewrite Rmult_assoc, <- (rsum_const n (INR n * (r / d))). apply rsum_le. intros k Hk.
  eapply Rle_trans; [apply rsum_abs|].
  rewrite <- (rsum_const n (r / d)). apply rsum_le. intros l Hl.
  assert (0 <= r / d) by (apply Rmult_le_pos; [done|left; by apply Rinv_0_lt_compat]).
  case_bool_decide as Hkl.
  { replace (U i k * (1 / D k) * 0 * U j l) with 0 by ring. by rewrite Rabs_R0. }
  rewrite !Rabs_mult.
  pose proof (orthogonal_bound n U i k HO Hi Hk) as H1. pose proof (orthogonal_bound n U j l HO Hj Hl) as H2.
  assert (H3 : Rabs (1 / D k) <= 1 / d).
  { unfold Rdiv. rewrite Rmult_1_l, Rmult_1_l, Rabs_inv. apply Rinv_le_contravar; [done|]. by apply HD. }
  assert (H4 : Rabs (upper ES k l) <= r). { unfold upper. apply Hr. lia. }
  pose proof (Rabs_pos (U i k)). pose proof (Rabs_pos (U j l)). pose proof (Rabs_pos (1 / D k)). pose proof (Rabs_pos (upper ES k l)).
  replace (r / d) with (1 * (1 / d) * r * 1) by (field; lra).
  apply Rmult_le_compat; [|done| |done].
  { apply Rmult_le_pos; [|done]. by apply Rmult_le_pos. }
  apply Rmult_le_compat; [by apply Rmult_le_pos|done| |done].
  by apply Rmult_le_compat.
Qed.

Theorem C47_inverse n eps A0 fuel ES U r d : 0 <= eps -> Symmetric n A0 ->
  symmetric_svd ROps rlit rsign eps fuel n A0 = Some (ES, U) ->
  let D := fun i => ES i i in
  (forall i, (i < n)%nat -> kept eps n D i = true) ->
  0 < d -> 0 <= r -> (forall i, (i < n)%nat -> d <= Rabs (D i)) ->
  (forall i j, (i < j < n)%nat -> Rabs (ES i j) <= r) ->
  forall i j, (i < n)%nat -> (j < n)%nat ->
  Rabs (mmul n (pseudo_inverse ROps rlit eps n D U) A0 i j - delta i j) <= INR n * INR n * (r / d).
Proof.
  intros He Hs Hsvd D HK Hd Hr0 HD Hr i j Hi Hj.
  destruct (C47_similarity fuel n eps A0 ES U He Hs Hsvd) as (HO & HA & _).
  eapply Rle_trans; [|exact (inverse_error n eps ES U r d He HO HK Hd Hr0 HD Hr i j Hi Hj)].
  apply Req_le. f_equal. f_equal. apply rsum_ext. intros k Hk. by rewrite HA.
Qed.

(** A matrix that needs rotating: the loop ends and its result satisfies the theorem. *)
Definition example_matrix : nat -> nat -> R := fun i j => if bool_decide (i = j) then 2 else 1.
Example C47_example : Symmetric 2 example_matrix /\ svd_step ROps rlit rsign (1 / 8) 2 example_matrix (identity rlit) <> None /\
  exists fuel ES U, symmetric_svd ROps rlit rsign (1 / 8) fuel 2 example_matrix = Some (ES, U).
Proof.
  split_and!.
  - intros i j _ _. unfold example_matrix. by repeat case_bool_decide.
  - intros H. pose proof (svd_step_none (1 / 8) 2 _ _ H 0 1 ltac:(lia)) as H1. unfold example_matrix in H1.
    rewrite bool_decide_false in H1 by done. rewrite Rabs_R1 in H1. lra.
  - destruct (C47_terminates 2 (1 / 8) example_matrix ltac:(lra)) as [fuel H]. exists fuel.
    destruct (symmetric_svd ROps rlit rsign (1 / 8) fuel 2 example_matrix) as [[ES U]|]; [|done]. by exists ES, U.
Qed.
(** The singular values of the identity are kept. *)
Example C47_kept_example : Orthogonal 2 delta /\ forall i, (i < 2)%nat -> kept (1 / 8) 2 (fun i => delta i i) i = true.
Proof.
  split.
  - split; intros i j Hi Hj; unfold mmul, transpose.
    + rewrite rsum_delta_l by done. apply delta_sym.
    + by rewrite rsum_delta.
  - intros i _. unfold kept. apply negb_true_iff. unfold Rleb. destruct (Rle_dec _ _) as [H|]; [|done]. exfalso.
    rewrite delta_same, Rabs_R1 in H. unfold svd_tolerance, max_eigen in H. cbn [seq foldl] in H. rewrite !t_abs_Rabs, !delta_same, !Rabs_R1 in H.
    unfold kmax, rlit in H. real_ops. destruct (Rltb 1 0) eqn:E; [apply Rltb_lt in E; lra|].
    destruct (Rltb 1 1) eqn:E1; [apply Rltb_lt in E1; lra|]. change (Z.of_nat 2) with 2%Z in H. lra.
Qed.

Print Assumptions C47_similarity.
Print Assumptions C47_terminates.
Print Assumptions C47_moore_penrose.
Print Assumptions C47_inverse.
