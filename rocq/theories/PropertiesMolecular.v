(** The molecular dynamics example: forces, energy, positions *)
From Coq Require Import Reals Lra QArith.
From Coquelicot Require Import Coquelicot.
From Verif Require Import MolecularProof.
Local Open Scope R_scope.

Lemma derive_along a b x : (x - a) ^ 2 + b <> 0 ->
  is_derive (fun x => / ((x - a) ^ 2 + b) ^ 6 / 12 - / ((x - a) ^ 2 + b) ^ 3 / 6) x (- ((x - a) * (/ ((x - a) ^ 2 + b) ^ 7 - / ((x - a) ^ 2 + b) ^ 4))).
Proof.
  intros H. set (s := (x - a) ^ 2 + b) in *.
  assert (is_derive (fun s => / s ^ 6 / 12 - / s ^ 3 / 6) s (- (1 / 2) * (/ s ^ 7 - / s ^ 4))) as D1.
  { clearbody s. auto_derive; [split; [exact (pow_nonzero s 6 H)|split; [exact (pow_nonzero s 3 H)|done] || exact (pow_nonzero s 3 H)]|]. field. done. }
  assert (is_derive (fun x => (x - a) ^ 2 + b) x (2 * (x - a))) as D2 by (auto_derive; [done|ring]).
  pose proof (is_derive_comp (fun s => / s ^ 6 / 12 - / s ^ 3 / 6) (fun x => (x - a) ^ 2 + b) x _ _ D1 D2) as D. cbn beta in D.
  replace (- ((x - a) * (/ s ^ 7 - / s ^ 4))) with (scal (2 * (x - a)) (- (1 / 2) * (/ s ^ 7 - / s ^ 4))); [exact D|]. unfold scal; cbn; unfold mult; cbn. lra.
Qed.
(** C94.  The force of one neighbour is minus the gradient of the pair potential. *)
Theorem C94_gradient c p q : dist2 p q <> 0 -> is_derive (fun x => potential (set_coord c p x) q) (coord c p) (- lj_force c p q).
Proof.
  intros H. unfold potential, lj_force, dist2 in *. destruct p as [[px py] pz], q as [[qx qy] qz].
  destruct c; cbn [coord set_coord fst snd] in *.
  - rewrite !(Rplus_assoc ((px - qx) ^ 2)) in *. eapply is_derive_ext; [|exact (derive_along qx ((py - qy) ^ 2 + (pz - qz) ^ 2) px H)]. intros t. cbn beta. by rewrite !(Rplus_assoc ((t - qx) ^ 2)).
  - assert (forall t, (px - qx) ^ 2 + (t - qy) ^ 2 + (pz - qz) ^ 2 = (t - qy) ^ 2 + ((px - qx) ^ 2 + (pz - qz) ^ 2)) as E by (intros; lra). rewrite !E in *.
    eapply is_derive_ext; [|exact (derive_along qy _ py H)]. intros t. cbn beta. by rewrite E.
  - assert (forall t, (px - qx) ^ 2 + (py - qy) ^ 2 + (t - qz) ^ 2 = (t - qz) ^ 2 + ((px - qx) ^ 2 + (py - qy) ^ 2)) as E by (intros; lra). rewrite !E in *.
    eapply is_derive_ext; [|exact (derive_along qz _ pz H)]. intros t. cbn beta. by rewrite E.
Qed.
(** The force on a particle is the sum over its neighbours within the cut-off; the forces add up to zero; and the update keeps the momentum.  The lists
    of neighbours are those of a symmetric relation; neighbours are at different points. *)
Theorem C94_momentum cutoff (particles : list (R * R * R)) indices offsets (velocities : list (R * R * R)) dt n N (pos : nat -> R * R * R) :
  length particles = n -> length velocities = n -> Lists n indices offsets N -> SymmetricLists n N ->
  (forall k, (k < n)%nat -> particles !! k = Some (pos k)) -> (forall i j, (i < n)%nat -> j ∈ N i -> dist2 (pos i) (pos j) <> 0) ->
  exists forces moved, compute_forces ROps cutoff particles indices offsets n = Some forces /\
    (forall i c, (i < n)%nat -> exists f, forces !! i = Some f /\
       coord c f = rsum (map (fun j => if Rltb (dist2 (pos i) (pos j)) cutoff then lj_force c (pos i) (pos j) else 0) (N i))) /\
    (forall c, rsum (map (coord c) forces) = 0) /\
    update_particles ROps dt particles velocities forces = Some moved /\
    (forall c, rsum (map (fun xv => coord c xv.2) moved) = rsum (map (coord c) velocities)) /\
    (forall i x v x' v' c, particles !! i = Some x -> velocities !! i = Some v -> moved !! i = Some (x', v') -> coord c x' = coord c x + dt * coord c v').
Proof.
  intros LP LV HL HS HP HD.
  assert (forall i j, (i < n)%nat -> j ∈ N i -> (j < n)%nat /\ dist2 (pos i) (pos j) <> 0) as HN.
  { intros i j Hi Hj. split; [by apply HS with i|by apply HD]. }
  pose proof (compute_forces_ok cutoff particles indices offsets n N pos HL HP HN) as EF.
  set (force i := (rsum (map (fun j => contrib cutoff AX (pos i) (pos j)) (N i)), rsum (map (fun j => contrib cutoff AY (pos i) (pos j)) (N i)), rsum (map (fun j => contrib cutoff AZ (pos i) (pos j)) (N i)))) in EF.
  assert (forall c i, coord c (force i) = rsum (map (fun j => contrib cutoff c (pos i) (pos j)) (N i))) as HC by (intros []; done).
  set (vel i := default (0, 0, 0) (velocities !! i)).
  exists (map force (seq 0 n)), (map (fun i => update_particle ROps dt (pos i) (vel i) (force i)) (seq 0 n)).
  assert (forall c, rsum (map (fun i => coord c (force i)) (seq 0 n)) = 0) as HZ.
  { intros c. rewrite (rsum_ext _ (fun i => rsum (map (fun j => contrib cutoff c (pos i) (pos j)) (N i)))) by (intros; apply HC).
    apply (antisymmetric_sum n N (fun i j => contrib cutoff c (pos i) (pos j)) HS). intros. apply contrib_anti. }
  assert (forall i, (i < n)%nat -> velocities !! i = Some (vel i)) as HV.
  { intros i Hi. destruct (lookup_lt_is_Some_2 velocities i) as [v Hv]; [by rewrite LV|]. unfold vel. by rewrite Hv. }
  assert (velocities = map vel (seq 0 n)) as EV.
  { apply list_eq. intros i. rewrite list_lookup_fmap. destruct (decide (i < n)%nat) as [Hi|Hi]; [rewrite lookup_seq_lt by done; cbn; by apply HV|].
    rewrite !lookup_ge_None_2; [done|rewrite seq_length; lia|lia]. }
  assert (forall c a b, coord c (vadd3 ROps a b) = coord c a + coord c b) as HA by (intros []; done).
  assert (forall c k a, coord c (vscale3 ROps k a) = k * coord c a) as HK by (intros []; done).
  split; [exact EF|]. split; [|split; [|split; [|split]]].
  - intros i c Hi. exists (force i). rewrite list_lookup_fmap, lookup_seq_lt by done. split; [done|]. apply HC.
  - intros c. rewrite map_map. apply HZ.
  - unfold update_particles, vec3. apply mapM_Some. apply Forall2_same_length_lookup. split; [rewrite map_length, !seq_length; done|].
    intros i k m Hk Hm. apply lookup_seq in Hk as [-> Hi]. assert (i < n)%nat as Hi' by (rewrite <- LP; exact Hi). clear Hi. rename Hi' into Hi. cbn [Nat.add]. rewrite list_lookup_fmap, lookup_seq_lt in Hm by done. cbn in Hm. injection Hm as <-.
    rewrite (HP i Hi). cbn [mbind option_bind]. rewrite (HV i Hi). cbn [mbind option_bind]. rewrite list_lookup_fmap, lookup_seq_lt by done. done.
  - intros c. assert (rsum (map (coord c) velocities) = rsum (map (fun i => coord c (vel i)) (seq 0 n))) as -> by (rewrite EV at 1; by rewrite map_map). rewrite map_map.
    rewrite (rsum_ext _ (fun i => coord c (vel i) + dt * coord c (force i))).
    + rewrite rsum_add, rsum_scale, HZ. lra.
    + intros i _. unfold update_particle. cbn [snd]. rewrite HA, HK. real_ops. unfold Rdiv. rewrite Rinv_1, Rmult_1_r. done.
  - intros i x v x' v' c Hx Hv Hm. rewrite list_lookup_fmap in Hm. destruct (decide (i < n)%nat) as [Hi|Hi].
    + rewrite lookup_seq_lt in Hm by done. cbn in Hm. injection Hm as <- <-. assert (x = pos i) as -> by (rewrite (HP i Hi) in Hx; congruence). rewrite HA, HK. done.
    + rewrite lookup_ge_None_2 in Hm by (rewrite seq_length; lia). done.
Qed.

(** C93.  Each term of the potential energy is half the pair potential, so adding all of them gives the energy of all pairs. *)
Theorem C93_term p q : dist2 p q <> 0 -> pair_energy ROps (1 / 2) 6 (rsq ROps (vsub3 ROps p q)) = potential p q / 2.
Proof. intros H. rewrite rsq_dist2. unfold pair_energy, r6inv, r2inv, potential. real_ops. field. done. Qed.
(** But a serial run returns the term of a single pair: the last neighbour of the last particle that has neighbours. *)
Fixpoint serial (n : nat) : rplan := match n with O => P_start | S n => P_apply (serial n) n end.
Theorem C93_serial half six cutoff (particles : list (R * R * R)) indices offsets n N (pos : nat -> R * R * R) i ns j : Lists n indices offsets N ->
  (forall k, (k < n)%nat -> particles !! k = Some (pos k)) -> (forall i j, (i < n)%nat -> j ∈ N i -> (j < n)%nat /\ dist2 (pos i) (pos j) < cutoff) ->
  (i < n)%nat -> N i = ns ++ [j] -> (forall k, (i < k < n)%nat -> N k = []) ->
  potential_energy ROps half six cutoff particles indices offsets (serial n) = Some (pair_energy ROps half six (dist2 (pos i) (pos j))).
Proof.
  intros HL HP HN Hi EN HE. unfold potential_energy.
  assert (forall u k, (k < n)%nat -> energy_functor ROps half six cutoff particles indices offsets k u =
    Some (foldl (fun e l => let s := rsq ROps (vsub3 ROps (pos k) (pos l)) in if Rltb s cutoff then pair_energy ROps half six s else e) u (N k))) as HF.
  { intros u k Hk. unfold energy_functor. rewrite (neighbour_loop_ok particles indices offsets n N pos); [done|done|done|intros l Hl; by apply (HN k l Hk)|done]. }
  assert (forall m, (m <= n)%nat -> exists u, run_plan (energy_functor ROps half six cutoff particles indices offsets) (fun u w => Some (o_add ROps u w)) (o_zero ROps) (serial m) = Some u /\
     ((i < m)%nat -> u = pair_energy ROps half six (dist2 (pos i) (pos j)))) as H.
  { induction m as [|m IH]; intros Hm; [eexists; split; [done|lia]|]. destruct (IH ltac:(lia)) as (u & E & Eu). cbn [serial run_plan]. rewrite E. cbn [mbind option_bind].
    rewrite HF by lia. eexists. split; [reflexivity|]. intros Him. destruct (decide (i = m)) as [->|Hne].
    - rewrite EN, foldl_app. cbn [foldl]. cbn zeta. rewrite rsq_dist2. destruct (HN m j Hi ltac:(rewrite EN; apply elem_of_app; right; left)) as [_ Hc]. apply Rltb_lt in Hc. by rewrite Hc.
    - rewrite HE by lia. cbn. apply Eu. lia. }
  destruct (H n ltac:(lia)) as (u & E & Eu). rewrite E, (Eu Hi). done.
Qed.

(** Three particles at distance 1: two ways to split the reduction give different energies, and neither is the sum of all terms. *)
Definition ex_particles : list (Q * Q * Q) := [(0, 0, 0); (1, 0, 0); (2, 0, 0)]%Q.
Definition ex_lists (i : nat) : list nat := match i with 0 => [1; 2] | 1 => [0; 2] | _ => [0; 1] end%nat.
Theorem C93_sum_refuted : exists (indices offsets : list nat) (p1 p2 : rplan) e1 e2,
  Lists 3 indices offsets ex_lists /\ SymmetricLists 3 ex_lists /\ plan_of 3 p1 /\ plan_of 3 p2 /\
  potential_energy QOps (1 # 2)%Q 6%Q 1000%Q ex_particles indices offsets p1 = Some e1 /\
  potential_energy QOps (1 # 2)%Q 6%Q 1000%Q ex_particles indices offsets p2 = Some e2 /\ ~ (e1 == e2)%Q /\
  let term a b := pair_energy QOps (1 # 2)%Q 6%Q (rsq QOps (vsub3 QOps (a, 0%Q, 0%Q) (b, 0%Q, 0%Q))) in
  let total := (term 0 1 + term 0 2 + term 1 0 + term 1 2 + term 2 0 + term 2 1)%Q in
  ~ (e1 == total)%Q /\ ~ (e2 == total)%Q.
Proof.
  exists [1; 2; 0; 2; 0; 1]%nat, [0; 2; 4; 6]%nat, (serial 3), (P_join (P_apply P_start 0) (P_join (P_apply P_start 1) (P_apply P_start 2))). do 2 eexists.
  split; [|split; [|split; [|split; [|split; [|split]]]]].
  - intros [|[|[|i]]] Hi; [exists 0%nat, 2%nat|exists 2%nat, 4%nat|exists 4%nat, 6%nat|lia]; (split; [reflexivity|]); (split; [reflexivity|]); (split; [cbn; lia|reflexivity]).
  - split; [intros [|[|[|i]]] Hi; try lia; cbn; repeat (apply NoDup_cons; split; [rewrite ?elem_of_cons, ?elem_of_nil; lia|]); apply NoDup_nil_2|].
    intros [|[|[|i]]] j Hi Hj; try lia; cbn in Hj; repeat (apply elem_of_cons in Hj as [->|Hj]; [split; [lia|split; [lia|cbn; rewrite ?elem_of_cons; lia]]|]); by apply elem_of_nil in Hj.
  - unfold plan_of. cbn. reflexivity.
  - unfold plan_of. cbn. reflexivity.
  - vm_compute. reflexivity.
  - vm_compute. reflexivity.
  - cbn zeta. repeat split; intros H; apply Qeq_bool_iff in H; vm_compute in H; discriminate.
Qed.

(** C95.  In every order of the writes: every slot of the view is written, by exactly one (i, j, k, t), and holds the particle of that (i, j, k, t). *)
Definition AllCells (nx ny nz : nat) (order : list (nat * nat * nat * nat)) : Prop :=
  NoDup order /\ forall i j k t, (i, j, k, t) ∈ order <-> (i < nx /\ j < ny /\ k < nz /\ t < 4)%nat.
Lemma slot_inj nx ny nz i j k t i' j' k' t' : (i < nx -> j < ny -> k < nz -> t < 4 -> i' < nx -> j' < ny -> k' < nz -> t' < 4 ->
  slot ny nz (i, j, k, t) = slot ny nz (i', j', k', t') -> (i, j, k, t) = (i', j', k', t'))%nat.
Proof.
  unfold slot. intros. destruct (Nat.div_mod_unique 4 (i * ny * nz + j * nz + k) (i' * ny * nz + j' * nz + k') t t') as [E ->]; [lia..|].
  destruct (Nat.div_mod_unique nz (i * ny + j) (i' * ny + j') k k') as [E' ->]; [lia|lia|nia|].
  destruct (Nat.div_mod_unique ny i i' j j') as [-> ->]; [lia|lia|lia|]. done.
Qed.
Lemma slot_bound nx ny nz i j k t : (i < nx -> j < ny -> k < nz -> t < 4 -> slot ny nz (i, j, k, t) < 4 * (nx * ny * nz))%nat.
Proof. unfold slot. intros. assert (i * ny + j < nx * ny)%nat by nia. assert ((i * ny + j) * nz + k < nx * ny * nz)%nat by nia. nia. Qed.
Lemma slot_onto nx ny nz s : (s < 4 * (nx * ny * nz) -> exists i j k t, i < nx /\ j < ny /\ k < nz /\ t < 4 /\ slot ny nz (i, j, k, t) = s)%nat.
Proof.
  intros H. exists (s / 4 / nz / ny)%nat, (s / 4 / nz mod ny)%nat, (s / 4 mod nz)%nat, (s mod 4)%nat.
  assert (nz <> 0 /\ ny <> 0)%nat as [Hz Hy] by (split; intros ->; rewrite ?Nat.mul_0_r in H; lia).
  split; [|split; [|split; [|split]]]; [|by apply Nat.mod_upper_bound|by apply Nat.mod_upper_bound|by apply Nat.mod_upper_bound|].
  - repeat (apply Nat.div_lt_upper_bound; [done|]). lia.
  - unfold slot. pose proof (Nat.div_mod s 4 ltac:(lia)). pose proof (Nat.div_mod (s / 4) nz Hz). pose proof (Nat.div_mod (s / 4 / nz) ny Hy). 
    replace (s / 4 / nz / ny * ny * nz + (s / 4 / nz) mod ny * nz)%nat with (nz * (s / 4 / nz))%nat by nia. lia.
Qed.
Theorem C95_positions {T} (O : Ops T) of_int half d nx ny nz order : AllCells nx ny nz order ->
  exists out, make_particles O of_int half d nx ny nz order = Some out /\ length out = (4 * (nx * ny * nz))%nat /\
    forall s, (s < 4 * (nx * ny * nz))%nat -> exists c, c ∈ order /\ slot ny nz c = s /\ (forall c', c' ∈ order -> slot ny nz c' = s -> c' = c) /\
      out !! s = Some (Some (particle_at O of_int half d c)).
Proof.
  intros [ND HA]. unfold make_particles.
  assert (forall l out, length out = (4 * (nx * ny * nz))%nat -> (forall c, c ∈ l -> c ∈ order) -> NoDup l ->
    exists out', foldl (fun out c => o ← out; wr o (slot ny nz c) (Some (particle_at O of_int half d c))) (Some out) l = Some out' /\ length out' = length out /\
      (forall c, c ∈ l -> out' !! slot ny nz c = Some (Some (particle_at O of_int half d c))) /\
      (forall s, (forall c, c ∈ l -> slot ny nz c <> s) -> out' !! s = out !! s)) as H.
  { induction l as [|c l IH]; intros out HL HO NDl; [exists out; split; [done|]; split; [done|]; split; [intros c Hc; by apply elem_of_nil in Hc|done]|].
    apply NoDup_cons in NDl as [Hc NDl]. destruct c as [[[i j] k] t]. destruct (proj1 (HA i j k t)) as (Hi & Hj & Hk & Ht); [apply HO; left|].
    cbn [foldl mbind option_bind]. rewrite wr_Some by (rewrite HL; by apply slot_bound).
    destruct (IH (<[slot ny nz (i, j, k, t) := Some (particle_at O of_int half d (i, j, k, t))]> out)) as (out' & E & L & H1 & H2);
      [by rewrite insert_length|intros c Hc'; apply HO; by right|done|].
    exists out'. split; [exact E|]. split; [by rewrite L, insert_length|]. split.
    - intros c Hc'. apply elem_of_cons in Hc' as [->|Hc']; [|by apply H1]. rewrite H2.
      + apply list_lookup_insert. rewrite HL. by apply slot_bound.
      + intros [[[i' j'] k'] t'] Hin E'. destruct (proj1 (HA i' j' k' t')) as (? & ? & ? & ?); [apply HO; by right|]. apply (slot_inj nx) in E'; [|done..]. rewrite E' in Hin. done.
    - intros s Hs. rewrite H2 by (intros c Hc'; apply Hs; by right). apply list_lookup_insert_ne. apply Hs. left. }
  destruct (H order (replicate (4 * (nx * ny * nz)) None)) as (out & E & L & H1 & H2); [by rewrite replicate_length|done|done|].
  exists out. split; [exact E|]. split; [by rewrite L, replicate_length|]. intros s Hs. destruct (slot_onto nx ny nz s Hs) as (i & j & k & t & Hi & Hj & Hk & Ht & Es).
  exists (i, j, k, t). assert ((i, j, k, t) ∈ order) as Hin by (by apply HA). split; [done|]. split; [done|]. split.
  - intros [[[i' j'] k'] t'] Hin' E'. destruct (proj1 (HA i' j' k' t') Hin') as (? & ? & ? & ?). apply (slot_inj nx ny nz); [done..|congruence].
  - rewrite <- Es. by apply H1.
Qed.
(** With spacings above 1/2 no two particles are at the same point. *)
Theorem C95_distinct (d : R * R * R) c c' : (forall a, 1 / 2 < coord a d) -> (let '(_, _, _, t) := c in (t < 4)%nat) -> (let '(_, _, _, t) := c' in (t < 4)%nat) ->
  particle_at ROps INR (1 / 2) d c = particle_at ROps INR (1 / 2) d c' -> c = c'.
Proof.
  destruct c as [[[i j] k] t], c' as [[[i' j'] k'] t']. intros Hd Ht Ht' E.
  assert (forall (m m' : nat) (h h' D : R), 1 / 2 < D -> (h = 0 \/ h = 1 / 2) -> (h' = 0 \/ h' = 1 / 2) -> INR m * D + h = INR m' * D + h' -> m = m' /\ h = h') as HU.
  { intros m m' h h' D HD Hh Hh' EQ. destruct (lt_eq_lt_dec m m') as [[Hl| ->]|Hl].
    - exfalso. assert (INR m + 1 <= INR m') as Hi by (rewrite <- S_INR; apply le_INR; lia). destruct Hh as [->| ->], Hh' as [->| ->]; nra.
    - split; [done|]. lra.
    - exfalso. assert (INR m' + 1 <= INR m) as Hi by (rewrite <- S_INR; apply le_INR; lia). destruct Hh as [->| ->], Hh' as [->| ->]; nra. }
  pose proof (Hd AX) as HX. pose proof (Hd AY) as HY. pose proof (Hd AZ) as HZ. cbn [coord] in *.
  destruct t as [|[|[|[|t]]]]; try lia; destruct t' as [|[|[|[|t']]]]; try lia; unfold particle_at in E; real_ops; injection E as E1 E2 E3;
    (apply HU in E1 as [-> F1]; [|done|lra|lra]); (apply HU in E2 as [-> F2]; [|done|lra|lra]); (apply HU in E3 as [-> F3]; [|done|lra|lra]); try done; exfalso; lra.
Qed.
(** With the constants of the program (spacing 1.7, offset .5) the particles are not a face-centred cubic lattice: particle 1 of a cell is not in the
    centre of its face, and its distances to the two opposite corners of the face differ. *)
Theorem C95_fcc_refuted : let at_ := particle_at QOps (fun n => inject_Z (Z.of_nat n)) (1 # 2)%Q (17 # 10, 17 # 10, 17 # 10)%Q in
  exists i j k, (i < 10 /\ j < 9 /\ k < 9)%nat /\ ~ ((at_ (i, j, k, 1%nat)).1.2 == inject_Z (Z.of_nat j) * (17 # 10) + (17 # 20))%Q /\
    ~ (rsq QOps (vsub3 QOps (at_ (i, j, k, 1%nat)) (at_ (i, j, k, 0%nat))) == rsq QOps (vsub3 QOps (at_ (i, j, k, 1%nat)) (at_ (i, S j, S k, 0%nat))))%Q.
Proof. exists 0%nat, 0%nat, 0%nat. split; [lia|]. split; intros H; apply Qeq_bool_iff in H; vm_compute in H; discriminate. Qed.

(** Two particles *)
Example C94_example : let pos i := match i with O => (0, 0, 0) | _ => (1, 0, 0) end : R * R * R in let N i := match i with O => [1] | _ => [0] end%nat in
  Lists 2 [1; 0]%nat [0; 1; 2]%nat N /\ SymmetricLists 2 N /\ (forall k, (k < 2)%nat -> [(0, 0, 0); (1, 0, 0)] !! k = Some (pos k)) /\
  (forall i j, (i < 2)%nat -> j ∈ N i -> dist2 (pos i) (pos j) <> 0) /\ N 0%nat = [] ++ [1%nat] /\ lj_force AX (2, 0, 0) (0, 0, 0) <> 0.
Proof.
  cbn zeta. split; [|split; [|split; [|split; [|split]]]].
  - intros [|[|i]] Hi; [exists 0%nat, 1%nat|exists 1%nat, 2%nat|lia]; (split; [reflexivity|]); (split; [reflexivity|]); (split; [cbn; lia|reflexivity]).
  - split; [intros [|i] Hi; apply NoDup_singleton|]. intros [|[|i]] j Hi Hj; try lia; apply elem_of_list_singleton in Hj as ->; (split; [lia|]); (split; [lia|]); left.
  - intros [|[|k]] Hk; [done|done|lia].
  - intros [|[|i]] j Hi Hj; try lia; apply elem_of_list_singleton in Hj as ->; unfold dist2; cbn [coord fst snd]; lra.
  - done.
  - unfold lj_force, dist2. cbn [coord fst snd]. replace ((2 - 0) ^ 2 + (0 - 0) ^ 2 + (0 - 0) ^ 2) with 4 by ring. assert (/ 4 ^ 7 < / 4 ^ 4); [|lra]. apply Rinv_lt_contravar; lra.
Qed.
Example C95_example : AllCells 1 1 2 [(0, 0, 1, 3); (0, 0, 0, 0); (0, 0, 0, 2); (0, 0, 0, 1); (0, 0, 0, 3); (0, 0, 1, 0); (0, 0, 1, 1); (0, 0, 1, 2)]%nat /\
  slot 1 2 (0, 0, 1, 3)%nat = 7%nat.
Proof.
  split; [split|reflexivity].
  - apply (bool_decide_unpack _). vm_compute. done.
  - intros i j k t. split.
    + intros H. repeat (apply elem_of_cons in H as [E|H]; [injection E as -> -> -> ->; lia|]). by apply elem_of_nil in H.
    + intros (Hi & Hj & Hk & Ht). assert (i = 0 /\ j = 0)%nat as [-> ->] by lia. destruct k as [|[|k]]; [| |lia]; destruct t as [|[|[|[|t]]]]; try lia; rewrite !elem_of_cons; tauto.
Qed.

Print Assumptions C93_term.
Print Assumptions C93_serial.
Print Assumptions C93_sum_refuted.
Print Assumptions C94_gradient.
Print Assumptions C94_momentum.
Print Assumptions C95_positions.
Print Assumptions C95_distinct.
Print Assumptions C95_fcc_refuted.
