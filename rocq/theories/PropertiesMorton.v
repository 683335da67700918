(** C17: Morton codes (src/spatial/detail/ArborX_MortonCode.hpp). *)
From Verif Require Import MortonModel MortonSpec MortonProof.
From Coq Require Import Lqa.
Local Open Scope N_scope.

(** For every supported dimension and every in-range integer coordinate vector the 32-bit code is the
    bit interleaving; likewise 64-bit, whose codes in addition stay below 2^63. *)
Theorem C17_morton32_interleaves : forall DIM xs, (1 <= DIM <= 10)%nat -> length xs = DIM ->
  Forall (fun x => x < 2 ^ N.of_nat (bits32 DIM)) xs ->
  Interleaves DIM (bits32 DIM) xs (morton32_int DIM xs).
Proof. exact morton32_interleaves. Qed.
Print Assumptions C17_morton32_interleaves.

Theorem C17_morton64_interleaves : forall DIM xs, (1 <= DIM <= 10)%nat -> length xs = DIM ->
  Forall (fun x => x < 2 ^ N.of_nat (bits64 DIM)) xs ->
  Interleaves DIM (bits64 DIM) xs (morton64_int DIM xs) /\ morton64_int DIM xs < 2 ^ 63.
Proof.
  intros DIM xs HD HL HF. pose proof (morton64_interleaves DIM xs HD HL HF) as H.
  split; [done|]. eapply N.lt_le_trans; [exact (Interleaves_lt _ _ _ _ H)|].
  apply N.pow_le_mono_r; [done|]. pose proof (bits64_fit DIM HD). lia.
Qed.
Print Assumptions C17_morton64_interleaves.

(** No information is lost. *)
Theorem C17_morton_injective : forall DIM xs ys, (1 <= DIM <= 10)%nat -> length xs = DIM -> length ys = DIM ->
  (Forall (fun x => x < 2 ^ N.of_nat (bits32 DIM)) xs -> Forall (fun x => x < 2 ^ N.of_nat (bits32 DIM)) ys ->
   morton32_int DIM xs = morton32_int DIM ys -> xs = ys) /\
  (Forall (fun x => x < 2 ^ N.of_nat (bits64 DIM)) xs -> Forall (fun x => x < 2 ^ N.of_nat (bits64 DIM)) ys ->
   morton64_int DIM xs = morton64_int DIM ys -> xs = ys).
Proof.
  intros DIM xs ys HD HX HY. split; intros FX FY E.
  - eapply (Interleaves_inj DIM (bits32 DIM)); eauto; [congruence|by apply morton32_interleaves|].
    rewrite E. by apply morton32_interleaves.
  - eapply (Interleaves_inj DIM (bits64 DIM)); eauto; [congruence|by apply morton64_interleaves|].
    rewrite E. by apply morton64_interleaves.
Qed.
Print Assumptions C17_morton_injective.

(** Codes are monotone in every coordinate. *)
Theorem C17_morton_monotone : forall DIM xs ys, (1 <= DIM <= 10)%nat -> length xs = DIM -> length ys = DIM ->
  (forall d x y, xs !! d = Some x -> ys !! d = Some y -> x <= y) ->
  (Forall (fun x => x < 2 ^ N.of_nat (bits32 DIM)) xs -> Forall (fun x => x < 2 ^ N.of_nat (bits32 DIM)) ys ->
   morton32_int DIM xs <= morton32_int DIM ys) /\
  (Forall (fun x => x < 2 ^ N.of_nat (bits64 DIM)) xs -> Forall (fun x => x < 2 ^ N.of_nat (bits64 DIM)) ys ->
   morton64_int DIM xs <= morton64_int DIM ys).
Proof.
  intros DIM xs ys HD HX HY Hle. split; intros FX FY.
  - apply (Interleaves_mono DIM (bits32 DIM) xs ys); auto using morton32_interleaves; lia.
  - apply (Interleaves_mono DIM (bits64 DIM) xs ys); auto using morton64_interleaves; lia.
Qed.
Print Assumptions C17_morton_monotone.

(** Any monotone rounding that represents N-1 exactly yields an in-range, monotone cell coordinate. *)
Theorem C17_cell_coordinate : forall rnd Nb, mono_rnd rnd -> (1 <= Nb)%Z ->
  (rnd (inject_Z (Nb - 1)) == inject_Z (Nb - 1))%Q ->
  (forall p, (0 <= cell_coord rnd Nb p < Nb)%Z) /\
  (forall p q, (p <= q)%Q -> (cell_coord rnd Nb p <= cell_coord rnd Nb q)%Z).
Proof.
  intros rnd Nb Hm HN He. split.
  - intros p. by apply cell_coord_range.
  - intros p q. apply cell_coord_mono; auto. rewrite He. rewrite <- Zle_Qle with (x:=0%Z). lia.
Qed.
Print Assumptions C17_cell_coordinate.

(** Non-vacuity. *)
Example C17_example3d : morton64_int 3 [1; 2; 4] = 84 /\ morton32_int 2 [0xffff; 0] = 0xaaaaaaaa.
Proof. split; vm_compute; reflexivity. Qed.
Example C17_example_hyp : Forall (fun x => x < 2 ^ N.of_nat (bits64 3)) [2097151; 5; 0].
Proof. repeat constructor. Qed.
Example C17_cell_example : cell_coord (fun x => x) 1024 (3#4) = 768%Z /\ cell_coord (fun x => x) 1024 1 = 1023%Z.
Proof. split; vm_compute; reflexivity. Qed.

(** Scaling into the scene box.  With exact arithmetic it is the relative position; with any monotone rounding that keeps 0 and 1 a
    coordinate of the box goes to [0, 1], its lower end to 0 and its upper end to 1 unless the width of the box rounds to 0, and the order is kept. *)
Theorem C17_scaled : forall rnd a b, mono_rnd rnd -> (rnd 0 == 0)%Q -> (rnd 1 == 1)%Q -> (a <= b)%Q ->
  (forall x, (a <= x <= b)%Q -> (0 <= scale_coord rnd a b x <= 1)%Q) /\
  (forall x y, (a <= x <= y)%Q -> (scale_coord rnd a b x <= scale_coord rnd a b y)%Q) /\
  (scale_coord rnd a b a == 0)%Q /\ ((a < b)%Q -> ~ (rnd (b - a) == 0)%Q -> (scale_coord rnd a b b == 1)%Q).
Proof.
  intros rnd a b Hm H0 H1 Hab. assert (forall x y, (x == y)%Q -> (rnd x == rnd y)%Q) as Hc by (intros x y E; apply Qle_antisym; apply Hm; rewrite E; apply Qle_refl).
  assert (forall x, (0 <= x)%Q -> (0 <= rnd x)%Q) as Hp by (intros x Hx; apply Hm in Hx; by rewrite H0 in Hx).
  assert (0 <= b - a)%Q as Hw by lra. apply Hp in Hw as Hd.
  assert (0 <= / rnd (b - a))%Q as Hi by (apply Qinv_le_0_compat; exact Hd).
  assert (forall x y, (a <= x <= y)%Q -> (scale_coord rnd a b x <= scale_coord rnd a b y)%Q) as Hmono.
  { intros x y [Hx Hy]. unfold scale_coord. destruct (Qeq_bool a b); [apply Qle_refl|]. apply Hm. unfold Qdiv. apply Qmult_le_compat_r; [|exact Hi]. apply Hm. lra. }
  assert (scale_coord rnd a b a == 0)%Q as Ha.
  { unfold scale_coord. destruct (Qeq_bool a b); [reflexivity|]. transitivity (rnd 0%Q); [|exact H0]. apply Hc. rewrite (Hc (a - a)%Q 0%Q) by ring. rewrite H0. unfold Qdiv. ring. }
  split; [|split; [exact Hmono|split; [exact Ha|]]].
  - intros x [Hx Hxb]. split; [rewrite <- Ha; apply Hmono; split; [apply Qle_refl|exact Hx]|]. apply Qle_trans with (scale_coord rnd a b b); [by apply Hmono|].
    unfold scale_coord. destruct (Qeq_bool a b); [done|]. rewrite <- H1. apply Hm. destruct (Qeq_dec (rnd (b - a)%Q) 0%Q) as [E|E]; [rewrite E; done|].
    unfold Qdiv. rewrite Qmult_inv_r by exact E. apply Qle_refl.
  - intros Hlt Hnz. unfold scale_coord. destruct (Qeq_bool a b) eqn:E; [apply Qeq_bool_iff in E; lra|]. transitivity (rnd 1%Q); [|exact H1]. apply Hc. unfold Qdiv. by apply Qmult_inv_r.
Qed.
Theorem C17_scaled_exact : forall a b x, (a < b)%Q -> (scale_coord (fun v => v) a b x * (b - a) == x - a)%Q.
Proof. intros a b x Hab. unfold scale_coord. destruct (Qeq_bool a b) eqn:E; [apply Qeq_bool_iff in E; lra|]. field. intros H. lra. Qed.
Print Assumptions C17_scaled.
Print Assumptions C17_scaled_exact.
Example C17_scaled_example : (scale_coord (fun v => v) 1 5 2 == 1 # 4)%Q /\ scale_coord (fun v => v) 3 3 3 = 0%Q /\ cell_coord (fun v => v) 1024 (scale_coord (fun v => v) 1 5 2) = 256%Z.
Proof. vm_compute. done. Qed.
