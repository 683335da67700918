(** C46, C62, C63: what row reduction, the weights and the coefficients do not do. *)
From Coq Require Import ZArith QArith SpecFloat.
From Verif Require Import Base GeomOps BoxModel InterpModel.

(** ** C46: row reduction misses a singular matrix *)
Definition q_matrix (rows : list (list Q)) : nat -> nat -> Q := fun i j => default 0%Q (rows !! i ≫= fun row => row !! j).
Definition q_row (M : nat -> nat -> Q) (v : list Q) (i : nat) : Q :=
  foldl (fun s '(j, x) => s + M i j * x)%Q 0%Q (zip (seq 0 (length v)) v).
Definition missed : nat -> nat -> Q := q_matrix [[1; 1; 2]; [1; 1; 2]; [2; 2; 5]]%Q.
(** Symmetric, with two equal rows (so the vector (1, -1, 0) is in its kernel) and non-negative eigenvalues, yet no zero
    row is found in the reduced matrix and nothing would be eliminated: the pivot search starts from row 0, which is
    above the pivot row, and a column without entries below takes the old pivot row again. *)
Theorem C46_zero_row_refuted : exists (M : nat -> nat -> Q) (v : list Q) (tolerance : Q) E perm,
  (forall i j, i < 3 -> j < 3 -> M i j = M j i)%nat /\ (forall i, (i < 3)%nat -> Qeq (q_row M v i) 0) /\ v <> [0; 0; 0]%Q /\ length v = 3%nat /\
  (forall x y z, 0 <= x * (M 0%nat 0%nat * x + M 0%nat 1%nat * y + M 0%nat 2%nat * z) + y * (M 1%nat 0%nat * x + M 1%nat 1%nat * y + M 1%nat 2%nat * z)
               + z * (M 2%nat 0%nat * x + M 2%nat 1%nat * y + M 2%nat 2%nat * z))%Q /\
  (0 < tolerance)%Q /\
  row_echelon QOps 7 3 0 0 tolerance M id = Some (E, perm) /\ zero_rows QOps 3 tolerance E = [].
Proof.
  destruct (row_echelon QOps 7 3 0 0 (1 # 1000) missed id) as [[E perm]|] eqn:Hr; [|vm_compute in Hr; discriminate].
  exists missed, [1; -(1); 0]%Q, (1 # 1000)%Q, E, perm. split_and!.
  - intros i j Hi Hj. destruct i as [|[|[|i]]], j as [|[|[|j]]]; try lia; reflexivity.
  - intros i Hi. destruct i as [|[|[|i]]]; [reflexivity..|lia].
  - discriminate.
  - done.
  - intros x y z. cbn.
    setoid_replace (x * (1 * x + 1 * y + 2 * z) + y * (1 * x + 1 * y + 2 * z) + z * (2 * x + 2 * y + 5 * z))%Q
      with ((x + y + 2 * z) * (x + y + 2 * z) + z * z)%Q by ring.
    assert (forall q : Q, 0 <= q * q)%Q as Hsq.
    { intros q. destruct (Qlt_le_dec q 0) as [H|H].
      - setoid_replace (q * q)%Q with ((- q) * (- q))%Q by ring. apply Qmult_le_0_compat; apply Qopp_le_compat in H || (apply Qlt_le_weak in H; apply Qopp_le_compat in H); exact H.
      - by apply Qmult_le_0_compat. }
    setoid_replace 0%Q with (0 + 0)%Q at 1 by ring. apply Qplus_le_compat; apply Hsq.
  - reflexivity.
  - done.
  - assert (Hz : option_map (fun r => zero_rows QOps 3 (1 # 1000) r.1) (row_echelon QOps 7 3 0 0 (1 # 1000) missed id) = Some []) by (vm_compute; reflexivity).
    rewrite Hr in Hz. cbn in Hz. by injection Hz.
Qed.

(** ** C62: weights in float *)
Definition lit32 (z : Z) : spec_float := f32 z 0.
Definition sign_of (x : spec_float) : bool := match x with S754_zero s | S754_infinity s | S754_finite s _ _ => s | S754_nan => false end.
Notation weight32 := (crbf_evaluate F32 lit32 (fun x => x)).
(** In float the weight of a farther neighbour can be seven times that of a nearer one: the terms of Buhmann's
    polynomial are thousands of times larger than its value near the edge of the support, and the absolute value turns
    the rounding error into a weight.  (The logarithm is not used by this function.) *)
Theorem C62_monotone_refuted : exists x y,
  SFltb x y = true /\ SFltb y (lit32 1) = true /\ SFltb (lit32 0) (weight32 Buhmann4 x) = true /\
  SFleb (o_mul F32 (lit32 7) (weight32 Buhmann4 x)) (weight32 Buhmann4 y) = true.
Proof. exists (o_div F32 (lit32 196) (lit32 220)), (o_div F32 (lit32 197) (lit32 220)). split_and!; vm_compute; reflexivity. Qed.
(** The same with the other square-root function, at distances between the normalised farthest neighbour (10/11) and
    the edge of the support. *)
Theorem C62_buhmann3_refuted : exists x y,
  SFltb x y = true /\ SFltb y (lit32 1) = true /\ SFleb (o_mul F32 (lit32 4) (weight32 Buhmann3 x)) (weight32 Buhmann3 y) = true.
Proof. exists (o_div F32 (lit32 198) (lit32 220)), (o_div F32 (lit32 200) (lit32 220)). split_and!; vm_compute; reflexivity. Qed.

(** ** C63: coefficients in float *)
(** Four neighbours at distance 1 from the target, weights Wendland<6>, linear polynomials, float: the moment matrix is
    regular, but its entries off the diagonal are below epsilon, so no rotation is made and the coefficients are those
    of the plain average.  The linear function x is then interpolated as 0.0961 instead of 0; with Wendland<0> the same
    points give less than 10^-6. *)
Definition eps32 : spec_float := f32 1 (-23).
Definition c11_32 : spec_float := o_div F32 (lit32 11) (lit32 10).
Definition four_sources : list (list spec_float) :=
  [[lit32 1; lit32 0]; [lit32 (-1); lit32 0]; [lit32 0; lit32 1]; [o_div F32 (lit32 5) (lit32 13); o_div F32 (lit32 (-12)) (lit32 13)]].
Definition interpolate_x (f : crbf) : option spec_float :=
  coeffs ← mls_coefficients F32 lit32 (fun x => x) sign_of eps32 c11_32 100 f 1 [lit32 0; lit32 0] four_sources;
  Some (mls_interpolate F32 coeffs ((fun s => default (lit32 0) (s !! 0%nat)) <$> four_sources)).
Theorem C63_linear_refuted : exists v w,
  interpolate_x Wendland6 = Some v /\ SFltb (o_div F32 (lit32 96) (lit32 1000)) v = true /\
  interpolate_x Wendland0 = Some w /\ SFltb (t_abs F32 w) (o_div F32 (lit32 1) (lit32 1000000)) = true.
Proof. do 2 eexists. split_and!; [vm_compute; reflexivity..|]. vm_compute; reflexivity. Qed.

Print Assumptions C46_zero_row_refuted.
Print Assumptions C62_monotone_refuted.
Print Assumptions C62_buhmann3_refuted.
Print Assumptions C63_linear_refuted.
