(** The ray tracing example: what it deposits, and what its own check accepts *)
From Coq Require Import Reals Lra SpecFloat.
From Verif Require Import RaytracingProof.
From stdpp Require Import sorting.
Local Open Scope R_scope.
Local Open Scope nat_scope.

(** C90.  In every interleaving of the threads, where thread i works through the hits progs(i) of ray i: no access is out of bounds, the energy of a ray
    changes by the factor (2 - exp(-length)) at each cell, the cells receive exactly what the formula says, and the cells gain exactly as much as the rays. *)
Theorem C90_deposit (progs : list (list (hit R))) tr (energies cells : list R) : Interleaving progs tr -> length energies = length progs ->
  Forall (Forall (fun h => h_cell h < length cells)) progs ->
  exists energies' cells', run_hits ROps rexpm1 tr (energies, cells) = Some (energies', cells') /\ length energies' = length energies /\ length cells' = length cells /\
    (forall i e p, energies !! i = Some e -> progs !! i = Some p -> energies' !! i = Some (e * growth p)%R) /\
    (forall c x, cells !! c = Some x -> cells' !! c = Some (x + lsum (zip_with (fun e p => deposited e p c) energies progs))%R) /\
    (lsum cells' - lsum cells = lsum energies' - lsum energies)%R.
Proof.
  intros [HI1 HI2] HL HC. destruct (run_hits_ok tr energies cells) as (r & c & E & L1 & L2 & H1 & H2 & H3).
  { intros [i h] Hin. pose proof (HI1 _ Hin) as Hi. cbn [fst snd] in *. split; [lia|]. destruct (lookup_lt_is_Some_2 progs i Hi) as [p Hp].
    rewrite Forall_lookup in HC. specialize (HC i p Hp). rewrite Forall_forall in HC. apply HC. rewrite <- (HI2 i p Hp). unfold thread_of.
    apply elem_of_list_In, in_map_iff. exists (i, h). split; [done|]. apply filter_In. split; [by apply elem_of_list_In|apply Nat.eqb_refl]. }
  exists r, c. split; [done|]. split; [done|]. split; [done|]. split; [|split; [|done]].
  - intros i e p He Hp. rewrite (H1 i e He). by rewrite (HI2 i p Hp).
  - intros k x Hx. rewrite (H2 k x Hx). do 3 f_equal. apply list_eq. intros i. rewrite list_lookup_imap, lookup_zip_with.
    destruct (energies !! i) as [e|] eqn:He; [|done]. cbn. destruct (lookup_lt_is_Some_2 progs i) as [p Hp]; [rewrite <- HL; by eapply lookup_lt_Some|].
    rewrite Hp. cbn. by rewrite (HI2 i p Hp).
Qed.
(** The energy is not conserved: what a cell takes is added to the ray.  A ray of energy 1 that passes through two cells of length 1 leaves more than 1. *)
Theorem C90_conservation_refuted : exists progs tr (energies cells energies' cells' : list R), Interleaving progs tr /\ length energies = length progs /\
  Forall (Forall (fun h => h_cell h < length cells /\ (0 <= h_length h)%R)) progs /\ Forall (fun x => x = 0%R) cells /\
  run_hits ROps rexpm1 tr (energies, cells) = Some (energies', cells') /\ (lsum energies < lsum cells')%R.
Proof.
  set (p := [Hit 0%R 0 1%R 0; Hit 1%R 0 1%R 1]).
  assert (Interleaving [p] (map (pair 0) p)) as HI.
  { split; [intros ih Hin; repeat (apply elem_of_cons in Hin as [->|Hin]; [cbn; lia|]); by apply elem_of_nil in Hin|]. intros [|i] q Hq; [injection Hq as <-; reflexivity|done]. }
  destruct (C90_deposit [p] (map (pair 0) p) [1%R] [0%R; 0%R] HI eq_refl) as (r & c & E & L1 & L2 & H1 & H2 & H3).
  { repeat constructor. }
  exists [p], (map (pair 0) p), [1%R], [0%R; 0%R], r, c. split; [done|]. split; [done|]. split; [repeat constructor; cbn; lra|]. split; [repeat constructor|]. split; [done|].
  specialize (H1 0 1%R p eq_refl eq_refl). destruct r as [|x [|]]; [done| |done]. injection H1 as ->. cbn [lsum foldr growth p h_length] in *.
  pose proof (exp_ineq1 1 ltac:(lra)) as He. assert (exp (- (1)) < 1 / 2)%R as Hh.
  { rewrite exp_Ropp. apply (Rmult_lt_reg_r (exp 1)); [lra|]. rewrite Rinv_l by lra. lra. }
  pose proof (exp_pos (- (1))) as Hp. unfold growth in H3. cbn [foldr] in H3. nra.
Qed.

(** C91.  The two approaches deposit the same energies.  The first visits the cells of each ray by increasing entry.  The second has the hits of all rays in
    a list, ray after ray; it is given a permutation that sorts them by ray and entry; thread i works through the segment of ray i of the sorted list. *)
Theorem C91_same_energies (segs ordered : list (list (hit R))) offsets perm (energies cells : list R) :
  (forall i seg, segs !! i = Some seg -> Forall (fun h => h_ray h = i /\ h_cell h < length cells) seg /\ NoDup (map h_entry seg)) ->
  (forall k, k <= length segs -> offsets !! k = Some (length (concat (take k segs)))) ->
  perm ≡ₚ seq 0 (length (concat segs)) ->
  (forall j k p q x y, j < k -> perm !! j = Some p -> perm !! k = Some q -> concat segs !! p = Some x -> concat segs !! q = Some y -> hit_less ROps y x = false) ->
  Forall2 (fun o seg => o ≡ₚ seg /\ StronglySorted by_entry o) ordered segs ->
  length energies = length segs ->
  exists progs, mapM (thread_hits (concat segs) offsets perm) (seq 0 (length segs)) = Some progs /\
    forall tr1 tr2, Interleaving ordered tr1 -> Interleaving progs tr2 ->
      exists energies' cells', run_hits ROps rexpm1 tr1 (energies, cells) = Some (energies', cells') /\ run_hits ROps rexpm1 tr2 (energies, cells) = Some (energies', cells').
Proof.
  intros HS HO HP HSo HOr HL. exists ordered. pose proof (Forall2_length _ _ _ HOr) as LO. split.
  - apply mapM_Some. apply Forall2_same_length_lookup. split; [rewrite seq_length; lia|]. intros i k p Hk Hp. apply lookup_seq in Hk as [-> Hi]. cbn [Nat.add] in *.
    destruct (Forall2_lookup_l _ _ _ _ _ HOr Hp) as (seg & Hseg & Pp & Sp).
    destruct (thread_hits_ok segs offsets perm i seg) as (hs & E & Ph & Sh); [|done..|].
    { intros j s Hj. destruct (HS j s Hj) as [H _]. eapply Forall_impl; [exact H|]. by intros h []. }
    rewrite E. f_equal. symmetry. apply sorted_unique; [done|done|by rewrite Pp, Ph|]. destruct (HS i seg Hseg) as [_ ND]. by rewrite Pp.
  - intros tr1 tr2 I1 I2.
    assert (Forall (Forall (fun h => h_cell h < length cells)) ordered) as HC.
    { apply Forall_lookup. intros i p Hp. destruct (Forall2_lookup_l _ _ _ _ _ HOr Hp) as (seg & Hseg & Pp & Sp). rewrite Pp. destruct (HS i seg Hseg) as [H _].
      eapply Forall_impl; [exact H|]. by intros h []. }
    destruct (C90_deposit ordered tr1 energies cells I1 ltac:(lia) HC) as (r1 & c1 & E1 & L11 & L12 & R1 & C1 & _).
    destruct (C90_deposit ordered tr2 energies cells I2 ltac:(lia) HC) as (r2 & c2 & E2 & L21 & L22 & R2 & C2 & _).
    exists r1, c1. split; [done|]. rewrite E2. do 2 f_equal; apply list_eq; intros i.
    + destruct (energies !! i) as [e|] eqn:He.
      * destruct (lookup_lt_is_Some_2 ordered i) as [p Hp]; [apply lookup_lt_Some in He; lia|]. by rewrite (R1 i e p He Hp), (R2 i e p He Hp).
      * apply lookup_ge_None in He. rewrite !lookup_ge_None_2 by lia. done.
    + destruct (cells !! i) as [e|] eqn:He; [by rewrite (C1 i e He), (C2 i e He)|]. apply lookup_ge_None in He. rewrite !lookup_ge_None_2 by lia. done.
Qed.

(** C92.  What the comparison at the end accepts: the difference is divided by the value once more than a relative error is, so the tolerance is relative to
    the square of the energy. *)
Theorem C92_accepts tol a b : b <> 0%R -> counts_error ROps tol a b = false <-> (Rabs (a - b) <= tol * (b * b))%R.
Proof.
  intros Hb. unfold counts_error. real_ops. assert (forall x, (if Rltb x 0 then - x else x)%R = Rabs x) as HA.
  { intros x. destruct (Rltb x 0) eqn:E; [apply Rltb_lt in E; by rewrite Rabs_left|apply Rltb_ge in E; rewrite Rabs_right; lra]. }
  rewrite !HA, Rltb_ge. pose proof (Rabs_pos_lt b Hb) as Hp. assert (Rabs b * Rabs b = b * b)%R as Hs by (rewrite <- Rabs_mult, Rabs_right; nra).
  rewrite <- Hs. split; intros H.
  - apply (Rmult_le_compat_r (Rabs b)) in H; [|lra]. unfold Rdiv in H. rewrite Rmult_assoc, Rinv_l in H by lra. lra.
  - apply (Rmult_le_reg_r (Rabs b)); [done|]. unfold Rdiv. rewrite Rmult_assoc, Rinv_l by lra. lra.
Qed.
(** In binary32 with the tolerance of the program (1e-5): an energy of 0 passes for one of 4 million; and a relative error of less than 1e-6 in an energy of
    1/1024 is counted as an error. *)
Theorem C92_tolerance_refuted : let tol := f32 10995116 (-40) in
  (exists a b, a = f32 0 0 /\ b = f32 4000000 0 /\ counts_error F32 tol a b = false) /\
  (exists a b, a = f32 (2 ^ 20 + 1) (-30) /\ b = f32 (2 ^ 20) (-30) /\ counts_error F32 tol a b = true).
Proof. split; do 2 eexists; (split; [reflexivity|]); (split; [reflexivity|]); vm_compute; reflexivity. Qed.

(** Two rays, three cells; ray 0 hits cells 1 and 0, the list has them the wrong way round *)
Definition ex_segs : list (list (hit R)) := [[Hit 2%R 0 1%R 0; Hit 1%R 0 1%R 1]; [Hit (1/2)%R 1 3%R 2]].
Example C91_example :
  (forall i seg, ex_segs !! i = Some seg -> Forall (fun h => h_ray h = i /\ h_cell h < length [0%R; 0%R; 0%R]) seg /\ NoDup (map h_entry seg)) /\
  (forall k, k <= length ex_segs -> [0; 2; 3] !! k = Some (length (concat (take k ex_segs)))) /\
  [1; 0; 2] ≡ₚ seq 0 (length (concat ex_segs)) /\
  (forall j k p q x y, j < k -> [1; 0; 2] !! j = Some p -> [1; 0; 2] !! k = Some q -> concat ex_segs !! p = Some x -> concat ex_segs !! q = Some y -> hit_less ROps y x = false) /\
  Forall2 (fun o seg => o ≡ₚ seg /\ StronglySorted by_entry o) [[Hit 1%R 0 1%R 1; Hit 2%R 0 1%R 0]; [Hit (1/2)%R 1 3%R 2]] ex_segs /\
  thread_hits (concat ex_segs) [0; 2; 3] [1; 0; 2] 0 = Some [Hit 1%R 0 1%R 1; Hit 2%R 0 1%R 0].
Proof.
  split; [|split; [|split; [|split; [|split]]]].
  - intros [|[|i]] seg H; [injection H as <-|injection H as <-|done]; (split; [repeat constructor|]).
    + cbn. apply NoDup_cons. split; [intros H; apply elem_of_list_singleton in H; lra|]. apply NoDup_singleton.
    + apply NoDup_singleton.
  - intros [|[|[|k]]] H; cbn in *; [done..|lia].
  - cbn. constructor.
  - intros j k p q x y Hjk Hp Hq Hx Hy. destruct j as [|[|[|j]]], k as [|[|[|k]]]; try lia; try done; injection Hp as <-; injection Hq as <-; injection Hx as <-; injection Hy as <-; unfold hit_less; cbn [h_ray Nat.eqb Nat.ltb Nat.leb h_entry]; try done.
    real_ops. apply Rltb_ge. lra.
  - repeat constructor; unfold by_entry; cbn; lra.
  - reflexivity.
Qed.
Example C90_example : let p0 := [Hit 0%R 0 1%R 0; Hit 1%R 0 2%R 1] in let p1 := [Hit 0%R 1 1%R 1] in
  Interleaving [p0; p1] [(0, Hit 0%R 0 1%R 0); (1, Hit 0%R 1 1%R 1); (0, Hit 1%R 0 2%R 1)] /\ Forall (Forall (fun h => h_cell h < 2)) [p0; p1] /\
  (0 < growth p0)%R.
Proof.
  split; [split|split].
  - intros ih H. repeat (apply elem_of_cons in H as [->|H]; [cbn; lia|]). by apply elem_of_nil in H.
  - intros [|[|i]] p H; [injection H as <-; reflexivity..|done].
  - repeat constructor.
  - unfold growth. cbn [foldr h_length]. assert (forall x, (0 < x)%R -> (0 < 2 - exp (- x))%R) as H.
    { intros x Hx. pose proof (exp_increasing (- x) 0 ltac:(lra)) as He. rewrite exp_0 in He. lra. }
    pose proof (H 1%R ltac:(lra)). pose proof (H 2%R ltac:(lra)). nra.
Qed.
Example C92_example : counts_error ROps (1 / 10)%R 5%R 4%R = false /\ counts_error ROps (1 / 100)%R 5%R 4%R = true.
Proof.
  split; [apply C92_accepts; [lra|]; rewrite Rabs_right; lra|]. destruct (counts_error _ _ _ _) eqn:E; [done|]. apply C92_accepts in E; [|lra]. rewrite Rabs_right in E; lra.
Qed.

Print Assumptions C90_deposit.
Print Assumptions C90_conservation_refuted.
Print Assumptions C91_same_energies.
Print Assumptions C92_accepts.
Print Assumptions C92_tolerance_refuted.
