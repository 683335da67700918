(** C14, C15: the brute-force search (src/spatial/detail/ArborX_BruteForceImpl.hpp). *)
From Verif Require Import BruteForceProof.
From Coq Require Import QArith Qround.
Local Open Scope nat_scope.

Definition ceil_div (n p : nat) : nat := (n + p - 1) / p.

(** With tile counts rounded up exactly, every (predicate, value) pair is tested exactly once, for all tile sizes. *)
Theorem C14_exact_tiles_partial : forall np ni pp ip, 0 < pp -> 0 < ip ->
  NoDup (tested_pairs np ni pp ip (ceil_div np pp) (ceil_div ni ip)) /\
  forall q j, (q, j) ∈ tested_pairs np ni pp ip (ceil_div np pp) (ceil_div ni ip) <-> q < np /\ j < ni.
Proof.
  intros np ni pp ip Hp Hi. apply tested_pairs_ok; auto; unfold ceil_div.
  - pose proof (Nat.div_mod (ni + ip - 1) ip ltac:(lia)). pose proof (Nat.mod_upper_bound (ni + ip - 1) ip ltac:(lia)). lia.
  - pose proof (Nat.div_mod (np + pp - 1) pp ltac:(lia)). pose proof (Nat.mod_upper_bound (np + pp - 1) pp ltac:(lia)). lia.
Qed.
Print Assumptions C14_exact_tiles_partial.
Example C14_example : tested_pairs 2 3 1 2 (ceil_div 2 1) (ceil_div 3 2) = [(0, 0); (0, 1); (0, 2); (1, 0); (1, 1); (1, 2)].
Proof. vm_compute. reflexivity. Qed.

(** The counts computed in single precision are exact below 2^24: for every rounding that is monotone, exact on
    integers up to 2^24 and has relative error at most 2^-24 (round to nearest in binary32 is one). *)
Record Rounding24 (rnd : Q -> Q) : Prop := {
  r_mono : forall x y, (x <= y)%Q -> (rnd x <= rnd y)%Q;
  r_int : forall z, (0 <= z <= 2 ^ 24)%Z -> (rnd (inject_Z z) == inject_Z z)%Q;
  r_rel : forall x, (0 <= x)%Q -> (x * (1 - (1 # 2 ^ 24)) <= rnd x)%Q }.

Theorem C14_float_count_partial : forall rnd n p, Rounding24 rnd -> 0 < n -> (Z.of_nat n < 2 ^ 24)%Z -> 0 < p -> (Z.of_nat p < 2 ^ 24)%Z ->
  Qceiling (rnd (rnd (inject_Z (Z.of_nat n)) / rnd (inject_Z (Z.of_nat p))))%Q = Z.of_nat (ceil_div n p).
Proof.
  intros rnd n p [RM RI RR] Hn Hn24 Hp Hp24.
  set (c := ceil_div n p).
  assert (p * (c - 1) < n /\ n <= p * c /\ 0 < c) as (Hc1 & Hc2 & Hc3).
  { unfold c, ceil_div. pose proof (Nat.div_mod (n + p - 1) p ltac:(lia)) as E. pose proof (Nat.mod_upper_bound (n + p - 1) p ltac:(lia)).
    assert (0 < (n + p - 1) / p) as Hpos by (apply Nat.div_str_pos; lia).
    revert E Hpos. generalize ((n + p - 1) / p). intros d E Hpos. assert (p * (d - 1) + p = p * d) by nia. lia. }
  clearbody c.
  assert (0 < inject_Z (Z.of_nat p))%Q as HpQ by (change 0%Q with (inject_Z 0); rewrite <- Zlt_Qlt; lia).
  set (x := (rnd (inject_Z (Z.of_nat n)) / rnd (inject_Z (Z.of_nat p)))%Q).
  assert (x == inject_Z (Z.of_nat n) / inject_Z (Z.of_nat p))%Q as Hx by (unfold x; rewrite !RI by lia; reflexivity).
  assert (x <= inject_Z (Z.of_nat c))%Q as Hle.
  { rewrite Hx. apply Qle_shift_div_r; [done|]. rewrite <- inject_Z_mult, <- Zle_Qle. nia. }
  assert (0 <= x)%Q as H0x.
  { rewrite Hx. apply Qle_shift_div_l; [done|]. rewrite Qmult_0_l. change 0%Q with (inject_Z 0). rewrite <- Zle_Qle. lia. }
  assert (rnd x <= inject_Z (Z.of_nat c))%Q as HU.
  { rewrite <- (RI (Z.of_nat c)) by nia. by apply RM. }
  assert (inject_Z (Z.of_nat c - 1) < rnd x)%Q as HL.
  { eapply Qlt_le_trans; [|apply RR; exact H0x]. rewrite Hx.
    unfold Qdiv. rewrite <- Qmult_assoc, (Qmult_comm (/ _)), Qmult_assoc. apply Qlt_shift_div_l; [done|].
    rewrite <- inject_Z_mult.
    assert (inject_Z (Z.of_nat n) * (1 - (1 # 2 ^ 24)) == (Z.of_nat n * (2 ^ 24 - 1)) # 2 ^ 24)%Q as ->.
    { unfold Qeq. simpl. lia. }
    unfold Qlt. cbn [inject_Z Qnum Qden]. nia. }
  pose proof (Qceiling_resp_le _ _ HU) as A. rewrite Qceiling_Z in A.
  pose proof (Qle_ceiling (rnd x)) as B.
  assert (inject_Z (Z.of_nat c - 1) < inject_Z (Qceiling (rnd x)))%Q as C by (eapply Qlt_le_trans; eauto).
  rewrite <- Zlt_Qlt in C. lia.
Qed.
Print Assumptions C14_float_count_partial.
Example C14_float_count_example : tile_count 100 7 = 15%Z /\ tile_count (2 ^ 24 - 1) 4096 = 4096%Z /\
  Rounding24 (fun x => x).
Proof.
  split; [vm_compute; reflexivity|]. split; [vm_compute; reflexivity|]. constructor; intros; [done|reflexivity|].
  rewrite <- (Qmult_1_r x) at 2. rewrite (Qmult_comm x 1), (Qmult_comm x). apply Qmult_le_compat_r; [|done]. vm_compute. discriminate.
Qed.

(** C14 is false for large inputs: with 2^24 + 1 values and tiles of 4096 values, the single-precision tile count is
    4096 and no team tests any predicate against the last value. *)
Theorem C14_refuted : exists np ni pp ip : nat,
  0 < pp /\ 0 < ip /\ Z.of_nat ni = (2 ^ 24 + 1)%Z /\ 0 < np /\
  tile_count (Z.of_nat ni) (Z.of_nat ip) = 4096%Z /\
  forall q, (q, ni - 1) ∉ tested_pairs np ni pp ip (Z.to_nat (tile_count (Z.of_nat np) (Z.of_nat pp))) (Z.to_nat (tile_count (Z.of_nat ni) (Z.of_nat ip))).
Proof.
  exists 1, (Z.to_nat (2 ^ 24 + 1)), 1, (Z.to_nat 4096). rewrite !Z2Nat.id by lia.
  assert (tile_count (2 ^ 24 + 1) 4096 = 4096%Z) as Et by (vm_compute; reflexivity). rewrite Et.
  remember (Z.to_nat (2 ^ 24 + 1)) as ni eqn:Hni. remember (Z.to_nat 4096) as ip eqn:Hip.
  assert (Z.of_nat ni = 16777217%Z) as Hni' by (subst ni; rewrite Z2Nat.id; [reflexivity|lia]).
  assert (Z.of_nat ip = 4096%Z) as Hip' by (subst ip; rewrite Z2Nat.id; [reflexivity|lia]).
  clear Hni Hip Et. split; [lia|]. split; [lia|]. split; [lia|]. split; [lia|]. split; [done|].
  intros q H. unfold tested_pairs in H. apply elem_of_list_In, in_flat_map in H as (t & _ & H).
  apply elem_of_list_In, team_pairs_in in H as (_ & _ & H & _).
  pose proof (Nat.mod_upper_bound t ip ltac:(lia)) as Hm. revert H Hm. generalize (t mod ip). intros d H Hm. nia.
Qed.
Print Assumptions C14_refuted.

(** C15 is false: with k = 1 and two values at distances 1 and 5, the farther one is reported. *)
Theorem C15_refuted : exists (k n : nat) (dl : nat -> nat) out, 1 <= k < n /\
  (forall j, j < n -> dl j < 1000) /\ bf_nearest Nat.ltb 1000 dl k n = Some out /\
  exists a b, a ∈ out /\ b < n /\ b ∉ out /\ dl b < dl a.
Proof.
  exists 1, 2, (fun j => if j =? 0 then 1 else 5), [1]. split; [lia|]. split; [intros [|j] _; simpl; lia|]. split; [vm_compute; reflexivity|].
  exists 1, 0. split; [left|]. split; [lia|]. split; [|simpl; lia]. intros H. apply elem_of_list_singleton in H. done.
Qed.
Print Assumptions C15_refuted.

(** What the search does guarantee: min(k, n) distinct values in ascending order, and apart from at most one lost
    value [x] nothing closer is left out; a value can only be lost if it is a farthest one among the first k and
    some later value is strictly farther. *)
Theorem C15_one_loss_partial :
  forall D (ltb : D -> D -> bool) inf dl k n, StrictWeak ltb -> (forall j, ltb inf (dl j) = false) -> 1 <= k ->
  exists out x rest, bf_nearest ltb inf dl k n = Some out /\ seq 0 n ≡ₚ out ++ x ++ rest /\
    length out = min k n /\ Ascending (fun a b => ltb (dl a) (dl b)) out /\
    (forall a b, a ∈ out -> b ∈ rest -> ltb (dl b) (dl a) = false) /\
    length x <= 1 /\ forall b, b ∈ x -> b < k < n /\ (forall i, i < k -> ltb (dl b) (dl i) = false) /\
      exists j, k <= j < n /\ ltb (dl b) (dl j) = true.
Proof. intros D ltb inf dl k n SW Hinf. by apply bf_nearest_ok. Qed.
Print Assumptions C15_one_loss_partial.
Example C15_example : bf_nearest Nat.ltb 1000 (fun j => nth j [7; 3; 9; 2; 8] 0) 3 5 = Some [3; 1; 0] /\
  bf_nearest Nat.ltb 1000 (fun j => nth j [7; 3; 9; 20; 8] 0) 3 5 = Some [1; 0; 4].
Proof. split; vm_compute; reflexivity. Qed.
