(** C80, C46: neighbours in degenerate position. *)
From Coq Require Import ZArith QArith SpecFloat.
From Verif Require Import Base GeomOps BoxModel InterpModel PropertiesInterpFloat.

Definition lit64 (z : Z) : spec_float := binary_normalize 53 1024 z 0 false.
Definition eps64 : spec_float := binary_normalize 53 1024 1 (-52) false.
Definition c11_64 : spec_float := o_div F64 (lit64 11) (lit64 10).
(** What is interpolated at the origin if every source value is 1. *)
Definition interpolate_one64 (f : crbf) (Degree : nat) (sources : list (list spec_float)) : option spec_float :=
  coeffs ← mls_coefficients F64 lit64 (fun x => x) sign_of eps64 c11_64 100 f Degree [lit64 0; lit64 0] sources;
  Some (mls_interpolate F64 coeffs (replicate (length sources) (lit64 1))).

Definition points64 (l : list (Z * Z)) : list (list spec_float) := (fun '(x, y) => [lit64 x; lit64 y]) <$> l.

(** ** C80: constants *)
(** Three collinear neighbours (8, 0), (6, -6), (7, -3) of the origin, default weights, linear polynomials, double: the moment
    matrix is singular, and that is seen; but rounding leaves in the last row of the reduced matrix a remainder above the tolerance,
    so no monomial is dropped, and the pseudo-inverse of the singular matrix does not reproduce constants: if all the values are 1, the
    interpolated value is 0.602.  The same neighbours in another order give 1 up to 2^-50. *)
Theorem C80_linear_refuted : exists v w,
  interpolate_one64 Wendland0 1 (points64 [(8, 0); (6, -6); (7, -3)]%Z) = Some v /\ SFltb v (o_div F64 (lit64 61) (lit64 100)) = true /\
  interpolate_one64 Wendland0 1 (points64 [(8, 0); (7, -3); (6, -6)]%Z) = Some w /\ SFleb (t_abs F64 (o_sub F64 w (lit64 1))) (f64 1 (-50)) = true.
Proof. do 2 eexists. split_and!; [vm_compute; reflexivity..|]. vm_compute; reflexivity. Qed.
Print Assumptions C80_linear_refuted.
(** The same with the default degree 2 and six distinct neighbours on the line x + y = 20: 0.747; five of them and (10, 10) give 1 up
    to 2^-42. *)
Theorem C80_quadratic_refuted : exists v w,
  interpolate_one64 Wendland0 2 (points64 [(6, 14); (14, 6); (13, 7); (7, 13); (8, 12); (9, 11)]%Z) = Some v /\ SFltb v (o_div F64 (lit64 3) (lit64 4)) = true /\
  interpolate_one64 Wendland0 2 (points64 [(14, 6); (6, 14); (13, 7); (7, 13); (8, 12); (10, 10)]%Z) = Some w /\ SFleb (t_abs F64 (o_sub F64 w (lit64 1))) (f64 1 (-42)) = true.
Proof. do 2 eexists. split_and!; [vm_compute; reflexivity..|]. vm_compute; reflexivity. Qed.
Print Assumptions C80_quadratic_refuted.

(** ** C46: the moment matrix of six neighbours, in exact arithmetic *)
(** Exact arithmetic on reduced fractions; the square root is exact on squares of rationals, see [exact_distances]. *)
Definition QExact : Ops Q := RndOps Qred (fun q => let r := Qred q in Z.sqrt (Qnum r) # Z.to_pos (Z.sqrt (QDen r))).
Definition q_points (l : list (Z * Z)) : list (list Q) := (fun '(x, y) => [inject_Z x; inject_Z y]) <$> l.
Definition q_origin : list Q := [0; 0]%Q.
Definition exact_distances (sources : list (list Q)) : Prop :=
  forallb (fun s => let d := distance_pp QExact s q_origin in Qeq_bool (d * d) (foldl (fun a x => a + x * x) 0 s)%Q && Qltb 0 d) sources = true.
(** The moment matrix of the sources for the target at the origin with Wendland<0> and degree 2, and the Vandermonde matrix. *)
Definition q_normalized (sources : list (list Q)) : list (list Q) := normalize_sources QExact (1 # 4503599627370496) (11 # 10) q_origin sources.
Definition q_moment (sources : list (list Q)) : option (nat -> nat -> Q) :=
  rows ← mapM (evaluate_basis QExact 2) (q_normalized sources);
  let phis := crbf_point QExact inject_Z (fun x => x) Wendland0 <$> q_normalized sources in
  Some (freeze QExact 6 (moment_matrix QExact (length sources) (fun m => default 0%Q (phis !! m)) (fun m k => default 0%Q (rows !! m ≫= fun row => row !! k)))).
Definition left_over_singular (sources : list (list Q)) (tolerance : Q) (v : list Q) : bool :=
  match q_moment sources with None => false | Some M =>
    match row_echelon QExact 13 6 0 0 tolerance M id with None => false | Some (E, perm) =>
      forallb (fun i => Qeq_bool (q_row (eliminate_rows inject_Z (perm <$> zero_rows QExact 6 tolerance E) M) v i) 0) (seq 0 6) end end.
Lemma left_over_singular_ok sources tolerance v : left_over_singular sources tolerance v = true ->
  exists M E perm, q_moment sources = Some M /\ row_echelon QExact 13 6 0 0 tolerance M id = Some (E, perm) /\
    forall i, (i < 6)%nat -> Qeq (q_row (eliminate_rows inject_Z (perm <$> zero_rows QExact 6 tolerance E) M) v i) 0.
Proof.
  unfold left_over_singular. destruct (q_moment sources) as [M|]; [|done]. destruct (row_echelon _ _ _ _ _ _ M _) as [[E perm]|] eqn:HE; [|done].
  intros H. rewrite forallb_forall in H. exists M, E, perm. split; [done|]. split; [done|]. intros i Hi. apply Qeq_bool_eq, H, in_seq. lia.
Qed.
(** Six distinct neighbours on the line 3 x + 4 y = 1500.  The moment matrix has rank 3, so three rows have to be dropped.  Row reduction
    finds two zero rows: the pivot search of an empty column starts from row 0 and exchanges that row, which is
    finished, with a row that is not.  The matrix left over is singular, and a vector of its kernel has a non-zero first component, so the
    constant 1 is not in its range and not reproduced by any pseudo-inverse of it. *)
Theorem C46_moment_refuted : exists sources M tolerance E perm (v : list Q),
  NoDup sources /\ exact_distances sources /\ q_moment sources = Some M /\ (0 < tolerance)%Q /\
  row_echelon QExact 13 6 0 0 tolerance M id = Some (E, perm) /\
  let left_over := eliminate_rows inject_Z (perm <$> zero_rows QExact 6 tolerance E) M in
  length v = 6%nat /\ (forall i, (i < 6)%nat -> Qeq (q_row left_over v i) 0) /\ v !! 0%nat = Some (900 # 1)%Q.
Proof.
  pose (sources := q_points [(224, 207); (280, 165); (308, 144); (360, 105); (432, 51); (500, 0)]%Z).
  pose (tolerance := (1 # 1000000000000)%Q). pose (v := [900; 0; - (2640); - (1089); 0; 1936]%Q).
  assert (left_over_singular sources tolerance v = true) as H by (vm_compute; reflexivity).
  assert (NoDup sources) as H1.
  { unfold sources. cbn. repeat (apply NoDup_cons; split; [rewrite ?elem_of_cons, elem_of_nil; intros HX; repeat (destruct HX as [HX|HX]; [discriminate|]); exact HX|]). apply NoDup_nil_2. }
  assert (exact_distances sources) as H2 by (vm_compute; reflexivity).
  assert (0 < tolerance)%Q as H3 by (vm_compute; reflexivity).
  assert (length v = 6%nat /\ v !! 0%nat = Some (900 # 1)%Q) as [H4 H5] by (split; vm_compute; reflexivity).
  clearbody sources tolerance v. apply left_over_singular_ok in H as (M & E & perm & HM & HE & HK).
  exists sources, M, tolerance, E, perm, v. cbv zeta. done.
Qed.
Print Assumptions C46_moment_refuted.
