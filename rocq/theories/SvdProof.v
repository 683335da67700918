(** Real sums, plane rotations and the Jacobi loop of the symmetric SVD. *)
From Coq Require Import Reals Lra Psatz.
From Verif Require Import Base GeomOps BoxModel InterpModel PropertiesRayReal PropertiesCrbf.
Local Open Scope R_scope.

(** ** Sums *)
Notation rsum := (sum_below ROps).
Lemma rsum_0 f : rsum 0 f = 0. Proof. done. Qed.
Lemma rsum_S n f : rsum (S n) f = rsum n f + f n.
Proof. unfold sum_below. by rewrite seq_S, foldl_app. Qed.
Lemma rsum_ext n f g : (forall k, (k < n)%nat -> f k = g k) -> rsum n f = rsum n g.
Proof. induction n as [|n IH]; intros H; [done|]. rewrite !rsum_S, IH, H by (intros; try apply H; lia). done. Qed.
Lemma rsum_plus n f g : rsum n (fun k => f k + g k) = rsum n f + rsum n g.
Proof. induction n as [|n IH]; [rewrite !rsum_0; ring|]. rewrite !rsum_S, IH. ring. Qed.
Lemma rsum_minus n f g : rsum n (fun k => f k - g k) = rsum n f - rsum n g.
Proof. induction n as [|n IH]; [rewrite !rsum_0; ring|]. rewrite !rsum_S, IH. ring. Qed.
Lemma rsum_scal n a f : rsum n (fun k => a * f k) = a * rsum n f.
Proof. induction n as [|n IH]; [rewrite !rsum_0; ring|]. rewrite !rsum_S, IH. ring. Qed.
Lemma rsum_scal_r n a f : rsum n (fun k => f k * a) = rsum n f * a.
Proof. rewrite (rsum_ext n _ (fun k => a * f k)) by (intros; ring). rewrite rsum_scal. ring. Qed.
Lemma rsum_zero n f : (forall k, (k < n)%nat -> f k = 0) -> rsum n f = 0.
Proof. induction n as [|n IH]; intros H; [done|]. rewrite rsum_S, IH, H by (intros; try apply H; lia). ring. Qed.
Lemma rsum_swap m n f : rsum m (fun i => rsum n (fun j => f i j)) = rsum n (fun j => rsum m (fun i => f i j)).
Proof.
  induction m as [|m IH]; [symmetry; by apply rsum_zero|]. rewrite rsum_S, IH, <- rsum_plus.
  apply rsum_ext. intros j _. by rewrite rsum_S.
Qed.
Lemma rsum_le n f g : (forall k, (k < n)%nat -> f k <= g k) -> rsum n f <= rsum n g.
Proof.
  induction n as [|n IH]; intros H; [rewrite !rsum_0; lra|]. rewrite !rsum_S.
  assert (rsum n f <= rsum n g) by (apply IH; intros; apply H; lia). specialize (H n ltac:(lia)). lra.
Qed.
Lemma rsum_nonneg n f : (forall k, (k < n)%nat -> 0 <= f k) -> 0 <= rsum n f.
Proof. intros H. rewrite <- (rsum_zero n (fun _ => 0)) by done. by apply rsum_le. Qed.
Lemma rsum_abs n f : Rabs (rsum n f) <= rsum n (fun k => Rabs (f k)).
Proof.
  induction n as [|n IH]; [rewrite !rsum_0, Rabs_R0; lra|]. rewrite !rsum_S.
  pose proof (Rabs_triang (rsum n f) (f n)). lra.
Qed.
Lemma rsum_const n a : rsum n (fun _ => a) = INR n * a.
Proof. induction n as [|n IH]; [rewrite rsum_0; cbn; ring|]. rewrite rsum_S, IH, S_INR. ring. Qed.
Definition delta (i j : nat) : R := if bool_decide (i = j) then 1 else 0.
Lemma delta_same i : delta i i = 1. Proof. unfold delta. by rewrite bool_decide_true. Qed.
Lemma delta_other i j : i <> j -> delta i j = 0. Proof. intros. unfold delta. by rewrite bool_decide_false. Qed.
Lemma delta_sym i j : delta i j = delta j i.
Proof. destruct (decide (i = j)) as [->|H]; [done|]. by rewrite !delta_other by done. Qed.
Lemma rsum_delta n p f : (p < n)%nat -> rsum n (fun k => delta k p * f k) = f p.
Proof.
  induction n as [|n IH]; intros H; [lia|]. rewrite rsum_S. destruct (decide (p = n)) as [->|Hne].
  - rewrite delta_same, rsum_zero; [ring|]. intros k Hk. rewrite delta_other by lia. ring.
  - rewrite IH, delta_other by lia. ring.
Qed.
Lemma rsum_delta_l n p f : (p < n)%nat -> rsum n (fun k => delta p k * f k) = f p.
Proof. intros H. rewrite <- (rsum_delta n p f H). apply rsum_ext. intros k _. by rewrite delta_sym. Qed.
Lemma rsum_delta_r n p f : (p < n)%nat -> rsum n (fun k => f k * delta k p) = f p.
Proof. intros H. rewrite <- (rsum_delta n p f H). apply rsum_ext. intros k _. ring. Qed.
Lemma rsum_single_le n p f : (p < n)%nat -> (forall k, (k < n)%nat -> 0 <= f k) -> f p <= rsum n f.
Proof.
  intros Hp Hf. rewrite <- (rsum_delta n p f Hp). apply rsum_le. intros k Hk. specialize (Hf k Hk).
  unfold delta. case_bool_decide; lra.
Qed.
(** Two sums that differ at two indices only. *)
Lemma rsum_two n p q f g : (p < n)%nat -> (q < n)%nat -> p <> q -> f p + f q = g p + g q ->
  (forall k, (k < n)%nat -> k <> p -> k <> q -> f k = g k) -> rsum n f = rsum n g.
Proof.
  intros Hp Hq Hpq Hs Ho. apply Rminus_diag_uniq. rewrite <- rsum_minus.
  rewrite (rsum_ext n _ (fun k => delta k p * (f p - g p) + delta k q * (f q - g q))).
  - rewrite rsum_plus, (rsum_delta n p (fun _ => f p - g p)), (rsum_delta n q (fun _ => f q - g q)) by done. lra.
  - intros k Hk. destruct (decide (k = p)) as [->|H1].
    { rewrite delta_same, delta_other by done. ring. }
    destruct (decide (k = q)) as [->|H2].
    { rewrite delta_same, delta_other by done. ring. }
    rewrite !delta_other, Ho by done. ring.
Qed.

(** ** Rotations of two coordinates *)
Definition rot (p q : nat) (c s : R) (f : nat -> R) : nat -> R := fun k =>
  if bool_decide (k = p) then c * f p + s * f q
  else if bool_decide (k = q) then - s * f p + c * f q
  else f k.
Lemma rot_p p q c s f : rot p q c s f p = c * f p + s * f q.
Proof. unfold rot. by rewrite bool_decide_true. Qed.
Lemma rot_q p q c s f : p <> q -> rot p q c s f q = - s * f p + c * f q.
Proof. intros. unfold rot. rewrite bool_decide_false by done. by rewrite bool_decide_true. Qed.
Lemma rot_other p q c s f k : k <> p -> k <> q -> rot p q c s f k = f k.
Proof. intros. unfold rot. by rewrite !bool_decide_false by done. Qed.

Section Rotation.
Context (n p q : nat) (c s : R) (Hp : (p < n)%nat) (Hq : (q < n)%nat) (Hpq : p <> q) (Hcs : c * c + s * s = 1).
Notation rt := (rot p q c s).
Lemma rot_dot f g : rsum n (fun k => rt f k * rt g k) = rsum n (fun k => f k * g k).
Proof using Hp Hq Hpq Hcs.
  apply (rsum_two n p q); [done..| |].
  - rewrite !rot_p, !rot_q by done. replace (f p * g p + f q * g q) with ((c * c + s * s) * (f p * g p + f q * g q)) by (rewrite Hcs; ring). ring.
  - intros k _ H1 H2. by rewrite !rot_other.
Qed.
Lemma rot_ext f g k : (forall k, (k < n)%nat -> f k = g k) -> (k < n)%nat -> rt f k = rt g k.
Proof using Hp Hq. intros H Hk. unfold rot. by rewrite !H. Qed.
Lemma rot_sum m (h : nat -> R) (F : nat -> nat -> R) k : rt (fun k => rsum m (fun l => F k l * h l)) k = rsum m (fun l => rt (fun k => F k l) k * h l).
Proof.
  unfold rot. case_bool_decide; [|case_bool_decide].
  - rewrite <- !rsum_scal, <- rsum_plus. apply rsum_ext. intros; ring.
  - rewrite <- !rsum_scal, <- rsum_plus. apply rsum_ext. intros; ring.
  - done.
Qed.
(** u S v^T for the rotated row, matrix and row. *)
Lemma rot_bilinear (u v : nat -> R) (S : nat -> nat -> R) :
  rsum n (fun k => rsum n (fun l => rt u k * rt (fun k => rt (S k) l) k * rt v l)) =
  rsum n (fun k => rsum n (fun l => u k * S k l * v l)).
Proof using Hp Hq Hpq Hcs.
  transitivity (rsum n (fun k => u k * rsum n (fun l => S k l * v l))).
  2: { apply rsum_ext. intros k _. rewrite <- rsum_scal. apply rsum_ext. intros; ring. }
  rewrite <- rot_dot. apply rsum_ext. intros k Hk.
  rewrite (rsum_ext n _ (fun l => rt u k * (rt (fun k => rt (S k) l) k * rt v l))) by (intros; ring).
  rewrite rsum_scal. f_equal.
  rewrite <- (rot_sum n (rt v) (fun k l => rt (S k) l) k). apply rot_ext; [|done].
  intros k' _. apply rot_dot.
Qed.
Lemma rot_delta k l : rt (fun k => rt (delta k) l) k = delta k l.
Proof using Hpq Hcs.
  destruct (decide (k = p)) as [->|H1]; [|destruct (decide (k = q)) as [->|H2]].
  - rewrite rot_p. destruct (decide (l = p)) as [->|H3]; [|destruct (decide (l = q)) as [->|H4]].
    + rewrite !rot_p, !delta_same, (delta_other p q), (delta_other q p) by done. lra.
    + rewrite !rot_q, !delta_same, (delta_other p q), (delta_other q p) by done. ring.
    + rewrite !rot_other, !delta_other by done. ring.
  - rewrite rot_q by done. destruct (decide (l = p)) as [->|H3]; [|destruct (decide (l = q)) as [->|H4]].
    + rewrite !rot_p, !delta_same, (delta_other p q), (delta_other q p) by done. ring.
    + rewrite !rot_q, !delta_same, (delta_other p q), (delta_other q p) by done. lra.
    + rewrite !rot_other, !delta_other by done. ring.
  - rewrite rot_other by done. destruct (decide (l = p)) as [->|H3]; [|destruct (decide (l = q)) as [->|H4]].
    + rewrite !rot_p, !delta_other by done. ring.
    + rewrite !rot_q, !delta_other by done. ring.
    + by rewrite !rot_other.
Qed.
End Rotation.

(** ** The rotation angle *)
Definition rsign (x : R) : bool := Rltb x 0.
Lemma jacobi_ok a b c x y cs sn : b <> 0 -> jacobi_coefficients ROps rlit rsign a b c = (x, y, cs, sn) ->
  cs * cs + sn * sn = 1 /\
  cs * (cs * a + sn * b) + sn * (cs * b + sn * c) = x /\
  - sn * (- sn * a + cs * b) + cs * (- sn * b + cs * c) = y /\
  cs * (- sn * a + cs * b) + sn * (- sn * b + cs * c) = 0 /\
  x * x + y * y = a * a + c * c + 2 * (b * b).
Proof.
  intros Hb. unfold jacobi_coefficients, rlit. rewrite !t_abs_Rabs. real_ops.
  set (tau := (c - a) / (2 * b)).
  assert (Htau : c - a = 2 * b * tau) by (unfold tau; field; done). clearbody tau.
  set (w := R_sqrt.sqrt (1 + tau * tau)).
  assert (Hw2 : w * w = 1 + tau * tau) by (apply sqrt_sqrt; nra).
  assert (Hw : 1 <= w). { unfold w. rewrite <- sqrt_1 at 1. apply sqrt_le_1_alt. nra. }
  clearbody w.
  set (t := if rsign tau then - (1 / (Rabs tau + w)) else 1 / (Rabs tau + w)).
  assert (Ht : t * t + 2 * tau * t - 1 = 0).
  { unfold t, rsign. destruct (Rltb tau 0) eqn:E; rewrite ?Rltb_lt, ?Rltb_ge in E.
    - rewrite Rabs_left by done. assert (Hne : - tau + w <> 0) by lra. set (d := - tau + w) in *.
      assert (Hd : w = d + tau) by (unfold d; ring). clearbody d. subst w.
      assert (d * d + 2 * d * tau = 1) by lra.
      replace (- (1 / d) * - (1 / d) + 2 * tau * - (1 / d) - 1) with ((1 - (d * d + 2 * d * tau)) / (d * d)) by (field; done).
      rewrite H. field. done.
    - rewrite Rabs_right by lra. assert (Hne : tau + w <> 0) by lra. set (d := tau + w) in *.
      assert (Hd : w = d - tau) by (unfold d; ring). clearbody d. subst w.
      assert (d * d - 2 * d * tau = 1) by lra.
      replace (1 / d * (1 / d) + 2 * tau * (1 / d) - 1) with ((1 - (d * d - 2 * d * tau)) / (d * d)) by (field; done).
      rewrite H. field. done. }
  clearbody t. intros [= <- <- <- <-].
  set (h := R_sqrt.sqrt (1 + t * t)).
  assert (Hh2 : h * h = 1 + t * t) by (apply sqrt_sqrt; nra).
  assert (Hh : 0 < h) by (apply sqrt_lt_R0; nra). clearbody h.
  assert (Hc : c = a + 2 * b * tau) by lra. subst c. clear Htau.
  set (k := 1 / h). assert (Hk : k * k * (1 + t * t) = 1) by (unfold k; rewrite <- Hh2; field; lra). clearbody k.
  assert (Ht2 : t * t = 1 - 2 * tau * t) by lra.
  split_and!.
  - rewrite <- Hk. ring.
  - transitivity (k * k * (a - 2 * t * b + t * t * (a + 2 * b * tau))); [ring|].
    transitivity (k * k * (1 + t * t) * (a - t * b)); [|rewrite Hk; ring].
    rewrite !(Rmult_assoc (k * k)). f_equal.
    replace (t * t * (a + 2 * b * tau)) with (t * t * a + b * t * (2 * tau * t)) by ring.
    replace (2 * tau * t) with (1 - t * t) by lra. ring.
  - transitivity (k * k * (t * t * a + 2 * t * b + (a + 2 * b * tau))); [ring|].
    transitivity (k * k * (1 + t * t) * (a + 2 * b * tau + t * b)); [|rewrite Hk; ring].
    rewrite !(Rmult_assoc (k * k)). f_equal.
    replace ((1 + t * t) * (a + 2 * b * tau + t * b)) with (a + 2 * b * tau + t * b + t * t * a + b * t * (2 * tau * t) + t * t * (b * t)) by ring.
    replace (2 * tau * t) with (1 - t * t) by lra. ring.
  - transitivity (k * k * (b * (1 - t * t - 2 * tau * t))); [ring|]. rewrite Ht2. ring.
  - replace ((a - t * b) * (a - t * b) + (a + 2 * b * tau + t * b) * (a + 2 * b * tau + t * b))
      with (a * a + (a + 2 * b * tau) * (a + 2 * b * tau) + 2 * (b * b) * (t * t + 2 * tau * t)) by ring.
    replace (t * t + 2 * tau * t) with 1 by lra. ring.
Qed.

(** ** One pass of the loop *)
Lemma freeze_ok n (M : nat -> nat -> R) i j : (i < n)%nat -> (j < n)%nat -> freeze ROps n M i j = M i j.
Proof.
  intros Hi Hj. unfold freeze. rewrite list_lookup_fmap, lookup_seq_lt by done. cbn.
  rewrite list_lookup_fmap, lookup_seq_lt by done. done.
Qed.
Lemma freeze_row_ok n (D : nat -> R) i : (i < n)%nat -> freeze_row ROps n D i = D i.
Proof. intros Hi. unfold freeze_row. rewrite list_lookup_fmap, lookup_seq_lt by done. done. Qed.

Lemma elem_of_upper_pairs n i j : (i, j) ∈ upper_pairs n <-> (i < j < n)%nat.
Proof.
  unfold upper_pairs. rewrite elem_of_list_bind. split.
  - intros (k & (l & [= -> ->] & Hl)%elem_of_list_fmap & Hk). apply elem_of_seq in Hl, Hk. lia.
  - intros H. exists i. split; [|apply elem_of_seq; lia]. apply elem_of_list_fmap. exists j. split; [done|]. apply elem_of_seq. lia.
Qed.
Lemma argmax_ok n A m p q : argmax_upper ROps n A = (m, p, q) ->
  (forall i j, (i < j < n)%nat -> Rabs (A i j) <= m) /\ (0 < m -> (p < q < n)%nat /\ Rabs (A p q) = m).
Proof.
  unfold argmax_upper.
  assert (G : forall l m0 p0 q0 m p q, (0 <= m0) -> (0 < m0 -> (p0 < q0 < n)%nat /\ Rabs (A p0 q0) = m0) -> (forall x, x ∈ l -> x ∈ upper_pairs n) ->
    foldl (fun '(max, row, col) '(i, j) => let val := t_abs ROps (A i j) in if o_ltb ROps max val then (val, i, j) else (max, row, col)) (m0, p0, q0) l = (m, p, q) ->
    m0 <= m /\ (forall i j, (i, j) ∈ l -> Rabs (A i j) <= m) /\ (0 < m -> (p < q < n)%nat /\ Rabs (A p q) = m)).
  { induction l as [|[i j] l IH]; intros m0 p0 q0 m' p' q' H0 Hinv Hl.
    - intros [= <- <- <-]. split_and!; [lra| |done]. intros i j H. by apply elem_of_nil in H.
    - cbn [foldl]. cbv zeta. rewrite t_abs_Rabs. real_ops.
      assert (Hij : (i < j < n)%nat) by (apply elem_of_upper_pairs, Hl; left).
      destruct (Rltb m0 (Rabs (A i j))) eqn:E; rewrite ?Rltb_lt, ?Rltb_ge in E; intros Hf.
      + destruct (IH _ _ _ _ _ _ (Rabs_pos _) (fun _ => conj Hij eq_refl) (fun x Hx => Hl x (elem_of_list_further _ _ _ Hx)) Hf) as (H1 & H2 & H3).
        split_and!; [lra| |done]. intros i' j' [[= -> ->]|H]%elem_of_cons; [lra|by apply H2].
      + destruct (IH _ _ _ _ _ _ H0 Hinv (fun x Hx => Hl x (elem_of_list_further _ _ _ Hx)) Hf) as (H1 & H2 & H3).
        split_and!; [lra| |done]. intros i' j' [[= -> ->]|H]%elem_of_cons; [lra|by apply H2]. }
  intros Hf. destruct (G _ _ _ _ _ _ _ (Rle_refl 0) ltac:(intros; lra) (fun x Hx => Hx) Hf) as (_ & H2 & H3).
  split; [|done]. intros i j Hij. apply H2. by apply elem_of_upper_pairs.
Qed.

Lemma upper_sym (A : nat -> nat -> R) i j : upper A i j = upper A j i.
Proof. unfold upper. by rewrite Nat.min_comm, Nat.max_comm. Qed.
Lemma upper_le (A : nat -> nat -> R) i j : (i <= j)%nat -> upper A i j = A i j.
Proof. intros. unfold upper. by rewrite Nat.min_l, Nat.max_r. Qed.
Lemma upper_ext (A B : nat -> nat -> R) n i j : (forall i j, (i < n)%nat -> (j < n)%nat -> A i j = B i j) ->
  (i < n)%nat -> (j < n)%nat -> upper A i j = upper B i j.
Proof. intros H Hi Hj. unfold upper. apply H; lia. Qed.
Lemma rotate_matrix_rot (A : nat -> nat -> R) p q x y c s : (p < q)%nat ->
  c * (c * A p p + s * A p q) + s * (c * A p q + s * A q q) = x ->
  - s * (- s * A p p + c * A p q) + c * (- s * A p q + c * A q q) = y ->
  c * (- s * A p p + c * A p q) + s * (- s * A p q + c * A q q) = 0 ->
  forall i j, upper (rotate_matrix ROps p q x y c s A) i j = rot p q c s (fun k => rot p q c s (upper A k) j) i.
Proof.
  intros Hpq Hx Hy Hz.
  assert (E : upper A p p = A p p /\ upper A q q = A q q /\ upper A p q = A p q /\ upper A q p = A p q).
  { rewrite (upper_sym A q p). by rewrite !upper_le by lia. }
  destruct E as (Epp & Eqq & Epq & Eqp).
  assert (G : forall i j, (i <= j)%nat -> rotate_matrix ROps p q x y c s A i j = rot p q c s (fun k => rot p q c s (upper A k) j) i).
  { intros i j Hij. unfold rotate_matrix. real_ops.
    destruct (decide (i = p)) as [->|H1]; [|destruct (decide (i = q)) as [->|H2]].
    - rewrite rot_p. destruct (decide (j = p)) as [->|H3]; [|destruct (decide (j = q)) as [->|H4]].
      + rewrite bool_decide_true by done. rewrite !rot_p, Epp, Eqq, Epq, Eqp. lra.
      + rewrite bool_decide_false by tauto. rewrite bool_decide_false by lia. rewrite bool_decide_true by done.
        rewrite !rot_q, Epp, Eqq, Epq, Eqp by lia. lra.
      + rewrite !(bool_decide_false (_ /\ _)) by lia. rewrite (bool_decide_false (_ < _)%nat) by lia.
        rewrite bool_decide_true by done. rewrite !rot_other by done. by rewrite (upper_sym A p j), (upper_sym A q j).
    - rewrite rot_q by lia. destruct (decide (j = q)) as [->|H4].
      + rewrite (bool_decide_false (_ /\ _)) by lia. rewrite bool_decide_true by done. rewrite !rot_q, Epp, Eqq, Epq, Eqp by lia. lra.
      + rewrite !(bool_decide_false (_ /\ _)) by lia. rewrite (bool_decide_false (_ < _)%nat) by lia.
        rewrite (bool_decide_false (q = p)), (bool_decide_false (j = p)), (bool_decide_true (q = q)) by lia.
        rewrite !rot_other by lia. by rewrite (upper_sym A p j), (upper_sym A q j).
    - rewrite rot_other by done.
      rewrite !(bool_decide_false (_ /\ _)) by lia. rewrite (bool_decide_false (_ < _)%nat) by lia.
      rewrite (bool_decide_false (i = p)) by done.
      destruct (decide (j = p)) as [->|H3]; [|destruct (decide (j = q)) as [->|H4]].
      + rewrite bool_decide_true by done. by rewrite rot_p.
      + rewrite (bool_decide_false (q = p)), (bool_decide_false (i = q)), bool_decide_true by done. by rewrite rot_q by lia.
      + rewrite !bool_decide_false by done. rewrite rot_other by done. by rewrite upper_le. }
  intros i j. destruct (Nat.le_ge_cases i j) as [H|H].
  - rewrite upper_le by done. by apply G.
  - rewrite upper_sym, upper_le, G by done.
    (* the double rotation of a symmetric matrix is symmetric *)
    unfold rot. rewrite !(upper_sym A _ i), !(upper_sym A q p), !(upper_sym A _ j).
    repeat case_bool_decide; subst; rewrite ?(upper_sym A _ p), ?(upper_sym A _ q), ?(upper_sym A q p); try ring.
Qed.
