(** Proofs about the molecular dynamics example *)
From Coq Require Import Reals Lra.
From Coquelicot Require Import Coquelicot.
From Verif Require Export MolecularSpec.
From Verif Require Import BenchDataProof.
Local Open Scope R_scope.

Lemma rsum_app l l' : rsum (l ++ l') = rsum l + rsum l'.
Proof. induction l as [|x l IH]; [change (rsum l' = 0 + rsum l'); lra|]. change (x + rsum (l ++ l') = x + rsum l + rsum l'). rewrite IH. lra. Qed.
Lemma rsum_add {A} (f g : A -> R) l : rsum (map (fun i => f i + g i) l) = rsum (map f l) + rsum (map g l).
Proof. induction l as [|x l IH]; [cbn; lra|]. change (f x + g x + rsum (map (fun i => f i + g i) l) = f x + rsum (map f l) + (g x + rsum (map g l))). rewrite IH. lra. Qed.
Lemma rsum_opp {A} (f : A -> R) l : rsum (map (fun i => - f i) l) = - rsum (map f l).
Proof. induction l as [|x l IH]; [cbn; lra|]. change (- f x + rsum (map (fun i => - f i) l) = - (f x + rsum (map f l))). rewrite IH. lra. Qed.
Lemma rsum_scale {A} k (f : A -> R) l : rsum (map (fun i => k * f i) l) = k * rsum (map f l).
Proof. induction l as [|x l IH]; [cbn; lra|]. change (k * f x + rsum (map (fun i => k * f i) l) = k * (f x + rsum (map f l))). rewrite IH. lra. Qed.
Lemma rsum_zero {A} (l : list A) : rsum (map (fun _ => 0) l) = 0.
Proof. induction l as [|x l IH]; [done|]. change (0 + rsum (map (fun _ => 0) l) = 0). rewrite IH. lra. Qed.
Lemma rsum_ext {A} (f g : A -> R) l : (forall i, i ∈ l -> f i = g i) -> rsum (map f l) = rsum (map g l).
Proof. intros H. f_equal. apply map_ext_in. intros a Ha. apply H. by apply elem_of_list_In. Qed.
Lemma rsum_swap {A B} (f : A -> B -> R) l l' : rsum (map (fun i => rsum (map (f i) l')) l) = rsum (map (fun j => rsum (map (fun i => f i j) l)) l').
Proof.
  induction l as [|x l IH]; [cbn; by rewrite rsum_zero|]. change (rsum (map (f x) l') + rsum (map (fun i => rsum (map (f i) l')) l) = rsum (map (fun j => f x j + rsum (map (fun i => f i j) l)) l')).
  by rewrite rsum_add, IH.
Qed.
(** The sum over a list without repetitions, as a sum over all indices *)
Lemma rsum_indicator (f : nat -> R) (N : list nat) l : NoDup N -> NoDup l -> (forall j, j ∈ N -> j ∈ l) ->
  rsum (map f N) = rsum (map (fun j => if decide (j ∈ N) then f j else 0) l).
Proof.
  intros ND. revert l. induction ND as [|x N Hx ND IH]; intros l NDl Hl.
  - symmetry. transitivity (rsum (map (fun _ : nat => 0) l)); [|apply rsum_zero]. apply rsum_ext. intros j _. destruct (decide (j ∈ [])) as [H|]; [by apply elem_of_nil in H|done].
  - assert (x ∈ l) as Hxl by (apply Hl; left). apply elem_of_list_split in Hxl as (l1 & l2 & ->). change (f x + rsum (map f N) = rsum (map (fun j => if decide (j ∈ x :: N) then f j else 0) (l1 ++ x :: l2))).
    assert (NoDup (l1 ++ l2) /\ x ∉ l1 ++ l2) as [ND' Hx'].
    { rewrite <- Permutation_middle in NDl. by apply NoDup_cons in NDl as [? ?]. }
    rewrite (IH (l1 ++ l2)); [|done|].
    2:{ intros j Hj. assert (j ∈ l1 ++ x :: l2) as H by (apply Hl; by right). rewrite <- Permutation_middle in H. apply elem_of_cons in H as [->|H]; done. }
    assert (forall l0, x ∉ l0 -> rsum (map (fun j => if decide (j ∈ x :: N) then f j else 0) l0) = rsum (map (fun j => if decide (j ∈ N) then f j else 0) l0)) as HE.
    { intros l0 H0. apply rsum_ext. intros j Hj. destruct (decide (j ∈ x :: N)) as [H|H], (decide (j ∈ N)) as [H'|H']; try done.
      - apply elem_of_cons in H as [->|H]; done.
      - exfalso. apply H. by right. }
    rewrite !map_app, !rsum_app. cbn [map]. rewrite (HE l1), <- (HE l2) by (intros H; apply Hx'; apply elem_of_app; auto).
    change (rsum ((if decide (x ∈ x :: N) then f x else 0) :: map (fun j => if decide (j ∈ x :: N) then f j else 0) l2))
      with ((if decide (x ∈ x :: N) then f x else 0) + rsum (map (fun j => if decide (j ∈ x :: N) then f j else 0) l2)).
    destruct (decide (x ∈ x :: N)) as [_|H]; [|exfalso; apply H; left]. lra.
Qed.
Lemma antisymmetric_sum (n : nat) (N : nat -> list nat) (F : nat -> nat -> R) : SymmetricLists n N -> (forall i j, F i j = - F j i) ->
  rsum (map (fun i => rsum (map (F i) (N i))) (seq 0 n)) = 0.
Proof.
  intros [ND HS] HF.
  set (G i j := if decide (j ∈ N i) then F i j else 0).
  assert (rsum (map (fun i => rsum (map (F i) (N i))) (seq 0 n)) = rsum (map (fun i => rsum (map (G i) (seq 0 n))) (seq 0 n))) as ->.
  { apply rsum_ext. intros i Hi. apply elem_of_seq in Hi. apply rsum_indicator; [apply ND; lia|apply NoDup_seq|]. intros j Hj. apply elem_of_seq. destruct (HS i j ltac:(lia) Hj). lia. }
  assert (rsum (map (fun i => rsum (map (G i) (seq 0 n))) (seq 0 n)) = - rsum (map (fun i => rsum (map (G i) (seq 0 n))) (seq 0 n))) as E; [|lra].
  rewrite rsum_swap at 1. rewrite <- rsum_opp. apply rsum_ext. intros j Hj. rewrite <- rsum_opp. apply rsum_ext. intros i Hi. apply elem_of_seq in Hi, Hj. unfold G.
  destruct (decide (j ∈ N i)) as [H|H], (decide (i ∈ N j)) as [H'|H']; [apply HF| | |lra].
  - destruct (HS i j ltac:(lia) H) as (_ & _ & ?). done.
  - destruct (HS j i ltac:(lia) H') as (_ & _ & ?). done.
Qed.

Local Open Scope nat_scope.
(** The loop over the neighbours *)
Lemma neighbour_loop_ok {T A} (particles : list (T * T * T)) indices offsets n N (pos : nat -> T * T * T) (body : T * T * T -> T * T * T -> A -> A) init i :
  Lists n indices offsets N -> (forall k, k < n -> particles !! k = Some (pos k)) -> (forall j, j ∈ N i -> j < n) -> i < n ->
  neighbour_loop particles indices offsets i body init = Some (foldl (fun u k => body (pos i) (pos k) u) init (N i)).
Proof.
  intros HL HP HN Hi. destruct (HL i Hi) as (a & b & Ea & Eb & Hab & EN). unfold neighbour_loop, vec3. rewrite (HP i Hi), Ea, Eb. cbn [mbind option_bind]. rewrite <- EN.
  assert (forall j, j ∈ take (b - a) (drop a indices) -> j < n) as HB by (rewrite EN; done). clear EN HL HN Ea Eb.
  assert (a + (b - a) <= length indices) as HLen by lia. remember (b - a) as m eqn:Em. clear Em Hab b. revert a init HB HLen. induction m as [|m IH]; intros a init HB HLen; [done|].
  destruct (lookup_lt_is_Some_2 indices a) as [x Hx]; [lia|]. rewrite (drop_S _ _ _ Hx) in HB |- *. cbn [take] in HB |- *. cbn [seq foldl mbind option_bind]. rewrite Hx. cbn [mbind option_bind].
  rewrite (HP x) by (apply HB; left). cbn [mbind option_bind]. apply (IH (S a)); [|lia]. intros j Hj. apply HB. by right.
Qed.
Local Open Scope R_scope.

Definition contrib (cutoff : R) (c : axis) (p q : R * R * R) : R := if Rltb (dist2 p q) cutoff then lj_force c p q else 0.
Lemma dist2_sym p q : dist2 p q = dist2 q p.
Proof. unfold dist2. ring. Qed.
Lemma contrib_anti cutoff c p q : contrib cutoff c p q = - contrib cutoff c q p.
Proof. unfold contrib. rewrite (dist2_sym q p). destruct (Rltb _ _); [|lra]. unfold lj_force. rewrite (dist2_sym q p). ring. Qed.
Lemma rsq_dist2 p q : rsq ROps (vsub3 ROps p q) = dist2 p q.
Proof. unfold rsq, vsub3, dist2. real_ops. cbn [coord fst snd]. ring. Qed.
Lemma fij_R s : s <> 0 -> fij ROps s = / s ^ 7 - / s ^ 4.
Proof. intros H. unfold fij, r6inv, r2inv. real_ops. field. done. Qed.
Lemma pair_force_ok cutoff p q acc c : dist2 p q <> 0 -> coord c (pair_force ROps cutoff p q acc) = coord c acc + contrib cutoff c p q.
Proof.
  intros H. unfold pair_force. rewrite rsq_dist2. unfold contrib. cbn [o_ltb ROps]. destruct (Rltb _ _); [|lra]. rewrite fij_R by done. unfold lj_force.
  destruct c; unfold vadd3, vsub3; real_ops; cbn [coord fst snd]; ring.
Qed.
Lemma force_fold cutoff p (pos : nat -> R * R * R) c l : (forall k, k ∈ l -> dist2 p (pos k) <> 0) -> forall acc,
  coord c (foldl (fun u k => pair_force ROps cutoff p (pos k) u) acc l) = coord c acc + rsum (map (fun k => contrib cutoff c p (pos k)) l).
Proof.
  induction l as [|k l IH]; intros H acc; [cbn; lra|]. cbn [foldl map]. rewrite IH by (intros; apply H; by right). rewrite pair_force_ok by (apply H; left).
  change (rsum (contrib cutoff c p (pos k) :: map (fun k => contrib cutoff c p (pos k)) l)) with (contrib cutoff c p (pos k) + rsum (map (fun k => contrib cutoff c p (pos k)) l)). lra.
Qed.
Lemma coord_eq (u v : R * R * R) : (forall c, coord c u = coord c v) -> u = v.
Proof. intros H. pose proof (H AX). pose proof (H AY). pose proof (H AZ). destruct u as [[? ?] ?], v as [[? ?] ?]. cbn in *. congruence. Qed.
Lemma compute_forces_ok cutoff particles indices offsets n N (pos : nat -> R * R * R) : Lists n indices offsets N ->
  (forall k, (k < n)%nat -> particles !! k = Some (pos k)) -> (forall i j, (i < n)%nat -> j ∈ N i -> (j < n)%nat /\ dist2 (pos i) (pos j) <> 0) ->
  compute_forces ROps cutoff particles indices offsets n =
    Some (map (fun i => (rsum (map (fun j => contrib cutoff AX (pos i) (pos j)) (N i)), rsum (map (fun j => contrib cutoff AY (pos i) (pos j)) (N i)), rsum (map (fun j => contrib cutoff AZ (pos i) (pos j)) (N i)))) (seq 0 n)).
Proof.
  intros HL HP HN. unfold compute_forces. apply mapM_Some. apply Forall2_same_length_lookup. split; [by rewrite map_length|]. intros i k v Hk Hv.
  apply lookup_seq in Hk as [-> Hi]. rewrite list_lookup_fmap, lookup_seq_lt in Hv by done. cbn in Hv. injection Hv as <-. cbn [Nat.add].
  unfold force_on. rewrite lookup_replicate_2 by done. cbn [mbind option_bind].
  rewrite (neighbour_loop_ok particles indices offsets n N pos); [|done|done|intros j Hj; by apply (HN i j Hi)|done]. cbn [mbind option_bind]. f_equal. apply coord_eq. intros c.
  assert (forall u v, coord c (vadd3 ROps u v) = coord c u + coord c v) as HA by (intros; destruct c; reflexivity).
  rewrite HA, force_fold by (intros j Hj; by apply (HN i j Hi)). destruct c; cbn [coord fst snd]; real_ops; ring.
Qed.
