(** Moving least squares: polynomial basis, compact radial basis functions, Jacobi diagonalisation, coefficients.
    Everything is a function of the arithmetic, so the same definitions run on reals and on IEEE numbers. *)
From Coq Require Import ZArith.
From Verif Require Import Base GeomOps BoxModel.

(** ** Polynomial basis *)
(** polynomialBasisSliceLengths<DIM, Degree>, src/interpolation/detail/ArborX_InterpDetailsPolynomialBasis.hpp:64-88.
    The table is a list of rows, one per degree; row 0 holds ones, and every further row starts with a one and adds the
    entry above and the entry to the left.  Simplified: [nat] instead of [std::size_t]. *)
Fixpoint slice_row_from (left : nat) (above : list nat) : list nat :=
  match above with
  | [] => []
  | a :: above => (a + left) :: slice_row_from (a + left) above
  end.
Definition slice_next_row (above : list nat) : list nat :=
  match above with
  | [] => []
  | _ :: above => 1 :: slice_row_from 1 above
  end.
Fixpoint slice_rows (row : list nat) (Degree : nat) : list (list nat) :=
  match Degree with
  | 0 => []
  | S Degree => row :: slice_rows (slice_next_row row) Degree
  end.
Definition slice_lengths (DIM Degree : nat) : list (list nat) := slice_rows (replicate DIM 1) Degree.

(** polynomialBasisSize<DIM, Degree>, same file, lines 92-106; the division is the integer division of the loop. *)
Fixpoint basis_size_loop (N k steps result : nat) : nat :=
  match steps with
  | 0 => result
  | S steps => basis_size_loop N (S k) steps (result * (N - k) / (k + 1))
  end.
Definition basis_size (DIM Degree : nat) : nat := basis_size_loop (DIM + Degree) 0 (min DIM Degree) 1.

Section Basis.
Context {T : Type} (O : Ops T).

(** The innermost loop of evaluatePolynomialBasis, same file, lines 134-135.  [None]: an access outside the array. *)
Fixpoint copy_slice (len i prev_col loc_offset : nat) (x : T) (arr : list T) : option (list T) :=
  match len with
  | 0 => Some arr
  | S len =>
      v ← arr !! (prev_col + i);
      if bool_decide (loc_offset + i < length arr)
      then copy_slice len (S i) prev_col loc_offset x (<[loc_offset + i := o_mul O v x]> arr)
      else None
  end.
(** The loop over the dimensions, lines 131-138: returns the array and the last loc_offset. *)
Fixpoint copy_dims (lens : list nat) (p : list T) (prev_col loc_offset : nat) (arr : list T) : option (list T * nat) :=
  match lens, p with
  | len :: lens, x :: p =>
      arr ← copy_slice len 0 prev_col loc_offset x arr;
      copy_dims lens p prev_col (loc_offset + len) arr
  | _, _ => Some (arr, loc_offset)
  end.
(** The loop over the degrees, lines 128-142. *)
Fixpoint copy_degrees (rows : list (list nat)) (p : list T) (prev_col curr_col : nat) (arr : list T) : option (list T) :=
  match rows with
  | [] => Some arr
  | lens :: rows =>
      '(arr, loc_offset) ← copy_dims lens p prev_col curr_col arr;
      copy_degrees rows p curr_col loc_offset arr
  end.
(** evaluatePolynomialBasis<Degree>(p), lines 109-146. *)
Definition evaluate_basis (Degree : nat) (p : list T) : option (list T) :=
  copy_degrees (slice_lengths (length p) Degree) p 0 1
    (<[0 := o_one O]> (replicate (basis_size (length p) Degree) (o_zero O))).
End Basis.

(** ** Compact radial basis functions, src/interpolation/detail/ArborX_InterpDetailsCompactRadialBasisFunction.hpp *)
Section Crbf.
Context {T : Type} (O : Ops T) (lit : Z -> T) (logarithm : T -> T).

Definition t_abs (x : T) : T := if o_ltb O x (o_zero O) then o_opp O x else x.
(** evaluatePolynomial, lines 30-38: highest coefficient first. *)
Definition evaluate_polynomial (x : T) (coeffs : list T) : T := foldl (fun eval coeff => o_add O (o_mul O x eval) coeff) (o_zero O) coeffs.
(** Kokkos::pow with a positive integer exponent.  Simplified: repeated multiplication. *)
Fixpoint power (x : T) (n : nat) : T := match n with 0 => o_one O | S n => o_mul O (power x n) x end.

Inductive crbf := Wendland0 | Wendland2 | Wendland4 | Wendland6 | Wu2 | Wu4 | Buhmann2 | Buhmann3 | Buhmann4.
Definition poly (x : T) (coeffs : list Z) : T := evaluate_polynomial x (lit <$> coeffs).
(** The FUNC arguments of CRBF_DEF, lines 68-91. *)
Definition crbf_body (f : crbf) (x : T) : T :=
  match f with
  | Wendland0 => power (poly x [-1; 1]%Z) 2
  | Wendland2 => o_mul O (power (poly x [-1; 1]%Z) 4) (poly x [4; 1]%Z)
  | Wendland4 => o_mul O (power (poly x [-1; 1]%Z) 6) (poly x [35; 18; 3]%Z)
  | Wendland6 => o_mul O (power (poly x [-1; 1]%Z) 8) (poly x [32; 25; 8; 1]%Z)
  | Wu2 => o_mul O (power (poly x [-1; 1]%Z) 4) (poly x [3; 12; 16; 4]%Z)
  | Wu4 => o_mul O (power (poly x [-1; 1]%Z) 6) (poly x [5; 30; 72; 82; 36; 6]%Z)
  | Buhmann2 =>
      if o_eqb O x (o_zero O) then o_div O (lit 1) (lit 6)
      else o_div O (evaluate_polynomial x [o_sub O (o_mul O (lit 12) (logarithm x)) (lit 21); lit 32; lit (-12); lit 0; lit 1]) (lit 6)
  | Buhmann3 =>
      o_div O (evaluate_polynomial x [lit 5; lit 0; lit (-84); lit 0; o_sub O (o_mul O (lit 1024) (o_sqrt O x)) (lit 1890);
                                      o_mul O (lit 1024) (o_sqrt O x); lit (-84); lit 0; lit 5]) (lit 5)
  | Buhmann4 =>
      o_div O (evaluate_polynomial x [lit 99; lit 0; lit (-4620); o_mul O (lit 9216) (o_sqrt O x);
                                      o_add O (o_mul O (lit (-11264)) (o_sqrt O x)) (lit 6930); lit 0; lit (-396); lit 0; lit 35]) (lit 35)
  end.
(** CRBF_DEF, lines 49-66: the argument is clamped to [0, 1] and the result made non-negative. *)
Definition crbf_evaluate (f : crbf) (y : T) : T := t_abs (crbf_body f (kmin O (t_abs y) (lit 1))).
(** CRBF::evaluate of a point, lines 98-104: the distance to the origin. *)
Definition crbf_point (f : crbf) (p : list T) : T := crbf_evaluate f (distance_pp O p (replicate (length p) (o_zero O))).
End Crbf.

(** ** Symmetric SVD, src/misc/ArborX_SymmetricSVD.hpp.  A matrix is a function of its indices; [freeze] stores its
    entries below n in a table, as the views do (it changes no entry, only how often it is computed). *)
Section Svd.
Context {T : Type} (O : Ops T) (lit : Z -> T) (signbit : T -> bool) (eps : T).
Notation mat := (nat -> nat -> T).

Definition freeze (n : nat) (M : mat) : mat :=
  let table := (fun i => M i <$> seq 0 n) <$> seq 0 n in
  fun i j => default (o_zero O) (table !! i ≫= fun row => row !! j).
Definition freeze_row (n : nat) (D : nat -> T) : nat -> T :=
  let table := D <$> seq 0 n in fun i => default (o_zero O) (table !! i).

(** for k < n: tmp += f(k) *)
Definition sum_below (n : nat) (f : nat -> T) : T := foldl (fun s k => o_add O s (f k)) (o_zero O) (seq 0 n).

(** symmetricMatrixFromSVD, lines 51-65: computed for i <= j and mirrored. *)
Definition matrix_from_svd (n : nat) (D : nat -> T) (U : mat) : mat := fun i j =>
  sum_below n (fun k => o_mul O (o_mul O (U (min i j) k) (D k)) (U (max i j) k)).

(** argmaxUpperTriangle, lines 67-95. *)
Definition upper_pairs (n : nat) : list (nat * nat) := i ← seq 0 n; (fun j => (i, j)) <$> seq (S i) (n - S i).
Definition argmax_upper (n : nat) (A : mat) : T * nat * nat :=
  foldl (fun '(max, row, col) '(i, j) => let val := t_abs O (A i j) in
           if o_ltb O max val then (val, i, j) else (max, row, col)) (o_zero O, 0, 0) (upper_pairs n).

(** jacobiRotationCoefficients, lines 103-125: x, y, cos_theta, sin_theta.  [signbit]: what copysign reads. *)
Definition jacobi_coefficients (a b c : T) : T * T * T * T :=
  let tau := o_div O (o_sub O c a) (o_mul O (lit 2) b) in
  let mag := o_div O (lit 1) (o_add O (t_abs O tau) (o_sqrt O (o_add O (lit 1) (o_mul O tau tau)))) in
  let tan_theta := if signbit tau then o_opp O mag else mag in
  let cos_theta := o_div O (lit 1) (o_sqrt O (o_add O (lit 1) (o_mul O tan_theta tan_theta))) in
  let sin_theta := o_mul O (o_opp O tan_theta) cos_theta in
  (o_sub O a (o_mul O tan_theta b), o_add O c (o_mul O tan_theta b), cos_theta, sin_theta).

(** One pass of the while loop, lines 173-213.  Only the entries on and above the diagonal of A are kept up to date;
    [None] below: the loop test of line 171 holds and the loop ends. *)
Definition upper (A : mat) (i j : nat) : T := A (min i j) (max i j).
Definition rotate_matrix (p q : nat) (x y c s : T) (A : mat) : mat := fun i j =>
  if bool_decide (i = p ∧ j = p) then x
  else if bool_decide (i = q ∧ j = q) then y
  else if bool_decide (i = p ∧ j = q) then o_zero O
  else if bool_decide (j < i) then A i j
  else if bool_decide (i = p) then o_add O (o_mul O c (upper A j p)) (o_mul O s (upper A j q))
  else if bool_decide (j = p) then o_add O (o_mul O c (upper A i p)) (o_mul O s (upper A i q))
  else if bool_decide (i = q) then o_add O (o_mul O (o_opp O s) (upper A j p)) (o_mul O c (upper A j q))
  else if bool_decide (j = q) then o_add O (o_mul O (o_opp O s) (upper A i p)) (o_mul O c (upper A i q))
  else A i j.
Definition rotate_unitary (p q : nat) (c s : T) (U : mat) : mat := fun i j =>
  if bool_decide (j = p) then o_add O (o_mul O c (U i p)) (o_mul O s (U i q))
  else if bool_decide (j = q) then o_add O (o_mul O (o_opp O s) (U i p)) (o_mul O c (U i q))
  else U i j.
Definition svd_step (n : nat) (A U : mat) : option (mat * mat) :=
  let '(max_val, p, q) := argmax_upper n A in
  if o_leb O max_val eps then None
  else let '(x, y, c, s) := jacobi_coefficients (A p p) (A p q) (A q q) in
       Some (freeze n (rotate_matrix p q x y c s A), freeze n (rotate_unitary p q c s U)).
(** symmetricSVDKernel, lines 136-219.  [None]: the loop did not end within the fuel. *)
Fixpoint svd_loop (fuel n : nat) (A U : mat) : option (mat * mat) :=
  match fuel with
  | 0 => None
  | S fuel => match svd_step n A U with None => Some (A, U) | Some (A, U) => svd_loop fuel n A U end
  end.
Definition identity : mat := fun i j => if bool_decide (i = j) then lit 1 else lit 0.
(** Returns the final A (its diagonal is D) and U. *)
Definition symmetric_svd (fuel n : nat) (A : mat) : option (mat * mat) := svd_loop fuel n A identity.

(** max_eigen, lines 238-241, also src/interpolation/detail/ArborX_InterpDetailsMovingLeastSquaresCoefficients.hpp:290-292 *)
Definition max_eigen (n : nat) (D : nat -> T) : T := foldl (fun m i => kmax O (t_abs O (D i)) m) (o_zero O) (seq 0 n).
Definition svd_tolerance (n : nat) (D : nat -> T) : T := o_mul O (o_mul O (lit (Z.of_nat n)) (max_eigen n D)) eps.
(** symmetricPseudoInverseSVDKernel, lines 230-253. *)
Definition pseudo_inverse (n : nat) (D : nat -> T) (U : mat) : mat :=
  let tolerance := svd_tolerance n D in
  matrix_from_svd n (freeze_row n (fun i => if o_leb O (t_abs O (D i)) tolerance then lit 0 else o_div O (lit 1) (D i))) U.
End Svd.

(** ** Moving least squares coefficients, src/interpolation/detail/ArborX_InterpDetailsMovingLeastSquaresCoefficients.hpp *)
Section Mls.
Context {T : Type} (O : Ops T) (lit : Z -> T) (logarithm : T -> T) (signbit : T -> bool) (eps one_tenth_more : T).
Notation mat := (nat -> nat -> T).

(** sourceNormalization, lines 230-249.  [one_tenth_more] is CoefficientsType(1.1). *)
Definition mls_radius (target : list T) (sources : list (list T)) : T :=
  o_mul O (foldl (fun radius s => kmax O radius (distance_pp O s target)) eps sources) one_tenth_more.
Definition normalize_sources (target : list T) (sources : list (list T)) : list (list T) :=
  let radius := mls_radius target sources in
  (fun s => zip_with (fun a t => o_div O (o_sub O a t) radius) s target) <$> sources.

(** momentComputation, lines 272-285: nb neighbours. *)
Definition moment_matrix (nb : nat) (phi : nat -> T) (V : mat) : mat := fun i j =>
  sum_below O nb (fun n => o_mul O (o_mul O (V n i) (V n j)) (phi n)).

(** isSingularMatrix, lines 287-300. *)
Definition is_singular (n : nat) (D : nat -> T) : bool :=
  existsb (fun i => o_leb O (t_abs O (D i)) (svd_tolerance O lit eps n D)) (seq 0 n).

(** rowEchelonForm, lines 302-347.  The state: matrix, permutation, pivot_row, pivot_col; i_max starts at row 0 (line 313). *)
Definition find_pivot (n pivot_row pivot_col : nat) (M : mat) : nat :=
  snd (foldl (fun '(max_entry, i_max) i => let val := t_abs O (M i pivot_col) in
                if o_ltb O max_entry val then (val, i) else (max_entry, i_max)) (o_zero O, 0) (seq pivot_row (n - pivot_row))).
Definition swap_index (a b i : nat) : nat := if bool_decide (i = a) then b else if bool_decide (i = b) then a else i.
Definition eliminate_below (pivot_row pivot_col : nat) (M : mat) : mat := fun i j =>
  if bool_decide (i <= pivot_row) then M i j
  else if bool_decide (j = pivot_col) then o_zero O
  else if bool_decide (j < pivot_col) then M i j
  else o_sub O (M i j) (o_mul O (M pivot_row j) (o_div O (M i pivot_col) (M pivot_row pivot_col))).
Fixpoint row_echelon (fuel n pivot_row pivot_col : nat) (tolerance : T) (M : mat) (perm : nat -> nat) : option (mat * (nat -> nat)) :=
  match fuel with
  | 0 => None
  | S fuel =>
      if bool_decide (pivot_row < n ∧ pivot_col < n) then
        let i_max := find_pivot n pivot_row pivot_col M in
        if o_ltb O (t_abs O (M i_max pivot_col)) tolerance then row_echelon fuel n pivot_row (S pivot_col) tolerance M perm
        else let M := freeze O n (fun i => M (swap_index pivot_row i_max i)) in
             row_echelon fuel n (S pivot_row) (S pivot_col) tolerance (freeze O n (eliminate_below pivot_row pivot_col M))
               (fun i => perm (swap_index pivot_row i_max i))
      else Some (M, perm)
  end.
(** The zero rows, lines 163-168: rows without an entry of at least [tolerance] on or after the diagonal. *)
Definition row_max (n i : nat) (M : mat) : T := foldl (fun m j => if o_ltb O m (t_abs O (M i j)) then t_abs O (M i j) else m) (o_zero O) (seq i (n - i)).
Definition zero_rows (n : nat) (tolerance : T) (M : mat) : list nat := base.filter (fun i => o_ltb O (row_max n i M) tolerance = true) (seq 0 n).
(** Lines 169-180: the eliminated rows and columns of the moment matrix and columns of the Vandermonde matrix. *)
Definition eliminate_rows (dropped : list nat) (M : mat) : mat := fun i j =>
  if bool_decide (i ∈ dropped ∨ j ∈ dropped) then (if bool_decide (i = j) then lit 1 else lit 0) else M i j.
Definition eliminate_columns (dropped : list nat) (V : mat) : mat := fun nb j => if bool_decide (j ∈ dropped) then lit 0 else V nb j.

(** coefficientsComputation, lines 349-361. *)
Definition coefficients_of (n : nat) (phi : nat -> T) (V P : mat) : nat -> T := fun nb =>
  sum_below O n (fun i => o_mul O (o_mul O (P 0 i) (V nb i)) (phi nb)).

(** The matrix part of operator(), lines 117-197.  Simplified: checks that only run in debug builds are left out. *)
Definition mls_solve (fuel n nb : nat) (phi : nat -> T) (V : mat) : option (nat -> T) :=
  let moment := freeze O n (moment_matrix nb phi V) in
  '(A, U) ← symmetric_svd O lit signbit eps fuel n moment;
  let D := freeze_row O n (fun i => A i i) in
  if is_singular n D then
    let tolerance := svd_tolerance O lit eps n D in
    let moment := freeze O n (matrix_from_svd O n D U) in
    '(E, perm) ← row_echelon (S (2 * n)) n 0 0 tolerance moment id;
    let dropped := perm <$> zero_rows n tolerance E in
    let moment := freeze O n (eliminate_rows dropped moment) in
    let V := eliminate_columns dropped V in
    '(A, U) ← symmetric_svd O lit signbit eps fuel n moment;
    Some (coefficients_of n phi V (freeze O n (pseudo_inverse O lit eps n (freeze_row O n (fun i => A i i)) U)))
  else Some (coefficients_of n phi V (freeze O n (pseudo_inverse O lit eps n D U))).

(** operator(), lines 72-199, for one target: the coefficient of every neighbour. *)
Definition mls_coefficients (fuel : nat) (f : crbf) (Degree : nat) (target : list T) (sources : list (list T)) : option (list T) :=
  let sources := normalize_sources target sources in
  let phis := crbf_point O lit logarithm f <$> sources in
  rows ← mapM (evaluate_basis O Degree) sources;
  let V := fun nb k => default (o_zero O) (rows !! nb ≫= fun row => row !! k) in
  let phi := fun nb => default (o_zero O) (phis !! nb) in
  coeff ← mls_solve fuel (basis_size (length target) Degree) (length sources) phi V;
  Some (coeff <$> seq 0 (length sources)).

(** MovingLeastSquares::interpolate for one target, src/interpolation/ArborX_InterpMovingLeastSquares.hpp:176-180;
    [values] are the source values of the neighbours in the order of the coefficients. *)
Definition mls_interpolate (coeffs values : list T) : T :=
  foldl (fun tmp cv => o_add O tmp (o_mul O cv.1 cv.2)) (o_zero O) (zip coeffs values).
End Mls.
