(** C48: moving least squares reproduce polynomials, over the real numbers. *)
From Coq Require Import Reals Lra Psatz Permutation.
From stdpp Require Import sorting.
From Verif Require Import Base GeomOps BoxModel InterpModel PropertiesBasis PropertiesRayReal PropertiesCrbf SvdProof PropertiesSvd.
Local Open Scope R_scope.

(** ** Specification: polynomials with real coefficients in DIM variables *)
Fixpoint lsum {A} (f : A -> R) (l : list A) : R := match l with [] => 0 | x :: l => f x + lsum f l end.
(** The polynomial of degree at most [Degree] with coefficient [b w] for the monomial [w]. *)
Definition polynomial (DIM Degree : nat) (b : list nat -> R) (x : list R) : R :=
  lsum (fun w => b w * monomial_value ROps x w) (words DIM Degree).

(** ** The solve *)
Lemma max_eigen_ext n D D' : (forall i, (i < n)%nat -> D i = D' i) -> max_eigen ROps n D = max_eigen ROps n D'.
Proof.
  intros H. unfold max_eigen.
  assert (G : forall l m, (forall i, i ∈ l -> (i < n)%nat) -> foldl (fun m i => kmax ROps (t_abs ROps (D i)) m) m l = foldl (fun m i => kmax ROps (t_abs ROps (D' i)) m) m l).
  { induction l as [|a l IH]; intros m Hl; [done|]. cbn [foldl]. rewrite H by (apply Hl; left). apply IH. intros i Hi. apply Hl. by right. }
  apply G. intros i Hi. apply elem_of_seq in Hi. lia.
Qed.
Lemma svd_tolerance_ext eps n D D' : (forall i, (i < n)%nat -> D i = D' i) -> svd_tolerance ROps rlit eps n D = svd_tolerance ROps rlit eps n D'.
Proof. intros H. unfold svd_tolerance. by rewrite (max_eigen_ext n D D' H). Qed.
Lemma pseudo_inverse_ext eps n D D' U i j : (forall i, (i < n)%nat -> D i = D' i) ->
  pseudo_inverse ROps rlit eps n D U i j = pseudo_inverse ROps rlit eps n D' U i j.
Proof.
  intros H. rewrite !pseudo_inverse_ok. apply rsum_ext. intros k Hk. unfold inverted, kept.
  by rewrite (svd_tolerance_ext eps n D D' H), (H k Hk).
Qed.
Lemma not_singular eps n D : is_singular ROps rlit eps n D = false -> forall i, (i < n)%nat -> kept eps n D i = true.
Proof.
  unfold is_singular. intros H i Hi. unfold kept. apply negb_true_iff. apply not_true_iff_false. intros E.
  apply not_true_iff_false in H. apply H. apply existsb_exists. exists i. split; [apply in_seq; lia|].
  real_ops. by rewrite t_abs_Rabs.
Qed.
Lemma moment_symmetric n nb phi V : Symmetric n (freeze ROps n (moment_matrix ROps nb phi V)).
Proof. intros i j Hi Hj. rewrite !freeze_ok by done. unfold moment_matrix. apply rsum_ext. intros. real_ops. ring. Qed.
Lemma coefficients_against n nb phi V V' P j : (j < n)%nat ->
  rsum nb (fun m => coefficients_of ROps n phi V' P m * V m j) = rsum n (fun i => P 0%nat i * rsum nb (fun m => V' m i * V m j * phi m)).
Proof.
  intros Hj. unfold coefficients_of.
  rewrite (rsum_ext nb _ (fun m => rsum n (fun i => P 0%nat i * (V' m i * V m j * phi m)))).
  - rewrite rsum_swap. apply rsum_ext. intros i _. by rewrite rsum_scal.
  - intros m _. rewrite <- rsum_scal_r. apply rsum_ext. intros i _. real_ops. ring.
Qed.

(** ** C48 *)
(** A moment matrix that is found regular: the coefficients applied to a column of the Vandermonde matrix give that
    monomial at the origin, up to n^2 r / d. *)
Theorem C48_solve fuel eps n nb phi V ES U r d : 0 <= eps -> (0 < n)%nat ->
  symmetric_svd ROps rlit rsign eps fuel n (freeze ROps n (moment_matrix ROps nb phi V)) = Some (ES, U) ->
  is_singular ROps rlit eps n (freeze_row ROps n (fun i => ES i i)) = false ->
  0 < d -> 0 <= r -> (forall i, (i < n)%nat -> d <= Rabs (ES i i)) -> (forall i j, (i < j < n)%nat -> Rabs (ES i j) <= r) ->
  exists coeff, mls_solve ROps rlit rsign eps fuel n nb phi V = Some coeff /\
    forall j, (j < n)%nat -> Rabs (rsum nb (fun m => coeff m * V m j) - delta 0 j) <= INR n * INR n * (r / d).
Proof.
  intros He Hn Hsvd Hreg Hd Hr0 HD Hr. unfold mls_solve. cbv zeta. rewrite Hsvd. cbn [mbind option_bind]. rewrite Hreg.
  eexists. split; [done|]. intros j Hj. rewrite coefficients_against by done.
  assert (Hk : forall i, (i < n)%nat -> kept eps n (fun i => ES i i) i = true).
  { intros i Hi. pose proof (not_singular _ _ _ Hreg i Hi) as H. unfold kept in *.
    rewrite (svd_tolerance_ext eps n _ (fun i => ES i i)) in H by (intros; by rewrite freeze_row_ok). by rewrite freeze_row_ok in H. }
  pose proof (C47_inverse n eps _ fuel ES U r d He (moment_symmetric n nb phi V) Hsvd Hk Hd Hr0 HD Hr 0%nat j Hn Hj) as H.
  eapply Rle_trans; [|exact H]. apply Req_le. f_equal. f_equal. unfold mmul. apply rsum_ext. intros i Hi.
  rewrite !freeze_ok by done. f_equal.
  apply pseudo_inverse_ext. intros k Hk'. by rewrite freeze_row_ok.
Qed.

(** ** Polynomials and affine changes of variables *)
Section Span.
Context (DIM : nat) (HDIM : (DIM > 0)%nat).
Notation mv := (monomial_value ROps).
Definition InSpan (k : nat) (f : list R -> R) : Prop := exists a, forall y, length y = DIM -> f y = polynomial DIM k a y.

Lemma lsum_ext {A} (f g : A -> R) l : (forall x, x ∈ l -> f x = g x) -> lsum f l = lsum g l.
Proof. induction l as [|a l IH]; intros H; [done|]. cbn. rewrite (H a), IH; [done| |left]. intros x Hx. apply H. by right. Qed.
Lemma lsum_plus {A} (f g : A -> R) l : lsum (fun x => f x + g x) l = lsum f l + lsum g l.
Proof. induction l as [|a l IH]; cbn; [ring|]. rewrite IH. ring. Qed.
Lemma lsum_scal {A} c (f : A -> R) l : lsum (fun x => c * f x) l = c * lsum f l.
Proof. induction l as [|a l IH]; cbn; [ring|]. rewrite IH. ring. Qed.
Lemma lsum_zero {A} (l : list A) : lsum (fun _ => 0) l = 0.
Proof. induction l as [|a l IH]; cbn; [done|]. rewrite IH. ring. Qed.
Lemma lsum_app {A} (f : A -> R) l k : lsum f (l ++ k) = lsum f l + lsum f k.
Proof. induction l as [|a l IH]; cbn; [ring|]. rewrite IH. ring. Qed.
Lemma lsum_pick {A} `{EqDecision A} (w : A) (f : A -> R) l : NoDup l -> w ∈ l ->
  lsum (fun x => (if bool_decide (x = w) then 1 else 0) * f x) l = f w.
Proof.
  induction 1 as [|a l Hn Hl IH]; intros Hw; [by apply elem_of_nil in Hw|]. cbn. apply elem_of_cons in Hw as [->|Hw].
  - rewrite bool_decide_true by done. rewrite (lsum_ext _ (fun _ => 0)), lsum_zero; [ring|].
    intros x Hx. rewrite bool_decide_false; [ring|]. intros ->. done.
  - rewrite IH by done. rewrite bool_decide_false; [ring|]. intros ->. done.
Qed.

Lemma span_single k w : Monomial DIM k w -> InSpan k (fun y => mv y w).
Proof using HDIM.
  intros Hw. exists (fun x => if bool_decide (x = w) then 1 else 0). intros y _. unfold polynomial.
  rewrite lsum_pick; [done|by apply words_NoDup|]. by apply words_spec.
Qed.
Lemma span_add k f g : InSpan k f -> InSpan k g -> InSpan k (fun y => f y + g y).
Proof using.
  intros [a Ha] [b Hb]. exists (fun w => a w + b w). intros y Hy. rewrite Ha, Hb by done. unfold polynomial.
  rewrite <- lsum_plus. apply lsum_ext. intros w _. ring.
Qed.
Lemma span_scal k c f : InSpan k f -> InSpan k (fun y => c * f y).
Proof using.
  intros [a Ha]. exists (fun w => c * a w). intros y Hy. rewrite Ha by done. unfold polynomial.
  rewrite <- lsum_scal. apply lsum_ext. intros w _. ring.
Qed.
Lemma span_ext k f g : (forall y, length y = DIM -> f y = g y) -> InSpan k f -> InSpan k g.
Proof using. intros H [a Ha]. exists a. intros y Hy. rewrite <- H by done. by apply Ha. Qed.
Lemma span_lsum k (l : list (list nat)) (F : list nat -> list R -> R) : (forall w, w ∈ l -> InSpan k (F w)) -> InSpan k (fun y => lsum (fun w => F w y) l).
Proof using.
  induction l as [|w l IH]; intros H.
  - exists (fun _ => 0). intros y _. unfold polynomial. cbn. rewrite (lsum_ext _ (fun _ => 0)), lsum_zero; [done|]. intros; ring.
  - cbn. apply span_add; [apply H; left|]. apply IH. intros w' Hw'. apply H. by right.
Qed.
Lemma span_mono k k' f : (k <= k')%nat -> InSpan k f -> InSpan k' f.
Proof using HDIM.
  intros Hk [a Ha]. apply (span_ext k' (fun y => lsum (fun w => a w * mv y w) (words DIM k))).
  { intros y Hy. by rewrite Ha. }
  apply (span_lsum k' _ (fun w y => a w * mv y w)). intros w Hw. apply span_scal, span_single.
  apply words_spec in Hw as (H1 & H2 & H3); [|done]. split_and!; [done..|lia].
Qed.
Lemma mv_foldl y w v : foldl (fun v d => o_mul ROps v (default (o_zero ROps) (y !! d))) v w = v * mv y w.
Proof using.
  unfold monomial_value. revert v. induction w as [|d w IH]; intros v; cbn [foldl]; [real_ops; ring|].
  rewrite IH, (IH (o_mul ROps _ _)). real_ops. ring.
Qed.
Lemma mv_cons y d w : mv y (d :: w) = default 0 (y !! d) * mv y w.
Proof using. unfold monomial_value at 1. cbn [foldl]. rewrite mv_foldl. real_ops. ring. Qed.
Lemma mv_perm y w w' : w ≡ₚ w' -> mv y w = mv y w'.
Proof using.
  induction 1 as [|d w w' H IH|d e w|]; [done| | |by etrans].
  - by rewrite !mv_cons, IH.
  - rewrite !mv_cons. ring.
Qed.
Lemma span_mul k d f : (d < DIM)%nat -> InSpan k f -> InSpan (S k) (fun y => f y * default 0 (y !! d)).
Proof using HDIM.
  intros Hd [a Ha].
  apply (span_ext (S k) (fun y => lsum (fun w => a w * mv y (merge_sort le (d :: w))) (words DIM k))).
  { intros y Hy. rewrite Ha by done. unfold polynomial. rewrite Rmult_comm, <- lsum_scal. apply lsum_ext. intros w _.
    rewrite (mv_perm y _ (d :: w)) by apply merge_sort_Permutation. rewrite mv_cons. ring. }
  apply (span_lsum (S k) _ (fun w y => a w * mv y (merge_sort le (d :: w)))). intros w Hw. apply span_scal, span_single.
  apply words_spec in Hw as (H1 & H2 & H3); [|done]. pose proof (merge_sort_Permutation le (d :: w)) as HP. split_and!.
  - apply Sorted_merge_sort. intros ??. lia.
  - rewrite HP. by constructor.
  - rewrite HP. cbn. lia.
Qed.
(** The substitution x = t + rho y. *)
Definition affine (t : list R) (rho : R) (y : list R) : list R := zip_with (fun a b => a + rho * b) t y.
Lemma span_affine_monomial t rho k w : length t = DIM -> Forall (fun d => (d < DIM)%nat) w -> (length w <= k)%nat ->
  InSpan k (fun y => mv (affine t rho y) w).
Proof using HDIM.
  intros Ht. revert k. induction w as [|d w IH]; intros k HF HL.
  - apply (span_ext k (fun y => mv y [])); [done|]. apply span_single. split_and!; [constructor..|cbn; lia].
  - inversion HF; subst. cbn in HL. destruct k as [|k]; [lia|]. specialize (IH k ltac:(done) ltac:(lia)).
    destruct (lookup_lt_is_Some_2 t d) as [td Htd]; [lia|].
    apply (span_ext (S k) (fun y => td * mv (affine t rho y) w + rho * (mv (affine t rho y) w * default 0 (y !! d)))).
    { intros y Hy. rewrite mv_cons. unfold affine at 3. destruct (lookup_lt_is_Some_2 y d) as [yd Hyd]; [lia|].
      rewrite lookup_zip_with, Htd, Hyd. cbn. ring. }
    apply span_add; [|apply span_scal; by apply span_mul]. apply span_scal. eapply span_mono; [|done]. lia.
Qed.
Lemma span_affine t rho k b : length t = DIM -> InSpan k (fun y => polynomial DIM k b (affine t rho y)).
Proof using HDIM.
  intros Ht. unfold polynomial. apply (span_lsum k _ (fun w y => b w * mv (affine t rho y) w)). intros w Hw.
  apply span_scal. apply words_spec in Hw as (_ & H2 & H3); [|done]. by apply span_affine_monomial.
Qed.
Lemma polynomial_at_zero k a : polynomial DIM k a (replicate DIM 0) = a [].
Proof using HDIM.
  unfold polynomial. rewrite <- (lsum_pick [] a (words DIM k)).
  - apply lsum_ext. intros w Hw. apply words_spec in Hw as (_ & HF & _); [|done]. destruct w as [|d w].
    + rewrite bool_decide_true by done. unfold monomial_value. cbn. real_ops. ring.
    + rewrite bool_decide_false by done. inversion HF; subst. rewrite mv_cons, lookup_replicate_2 by done. cbn. ring.
  - by apply words_NoDup.
  - apply words_spec; [done|]. split_and!; [constructor..|cbn; lia].
Qed.
End Span.

(** ** From the matrices to the points *)
Lemma lsum_rsum {A} (f : A -> R) (l : list A) (x0 : A) : lsum f l = rsum (length l) (fun k => f (default x0 (l !! k))).
Proof.
  induction l as [|a l IH] using rev_ind; [done|]. rewrite lsum_app, IH, app_length. cbn. rewrite Nat.add_1_r, rsum_S. f_equal.
  - apply rsum_ext. intros k Hk. by rewrite lookup_app_l.
  - rewrite list_lookup_middle by done. cbn. ring.
Qed.
Lemma interpolate_rsum (coeff : nat -> R) (g : nat -> R) n :
  mls_interpolate ROps (coeff <$> seq 0 n) (g <$> seq 0 n) = rsum n (fun m => coeff m * g m).
Proof.
  unfold mls_interpolate. induction n as [|n IH]; [done|]. rewrite rsum_S, seq_S, !fmap_app, zip_with_app by (by rewrite !fmap_length).
  rewrite foldl_app, IH. cbn. done.
Qed.

Lemma affine_inverse (t s : list R) rho : 0 < rho -> length s = length t -> s = affine t rho (zip_with (fun a t => o_div ROps (o_sub ROps a t) rho) s t).
Proof.
  intros Hr. revert s. unfold affine. induction t as [|x t IH]; intros [|a s] HL; try done. cbn [zip_with].
  f_equal; [real_ops; field; lra|]. apply IH. by injection HL.
Qed.
Lemma affine_zero (t : list R) rho : t = affine t rho (replicate (length t) 0).
Proof. unfold affine. induction t as [|x t IH]; [done|]. cbn [length replicate zip_with]. f_equal; [ring|exact IH]. Qed.

Section Points.
Context (eps : R) (Heps : 0 < eps) (f : crbf) (Degree : nat) (target : list R) (sources : list (list R)).
Context (Hdim : (length target > 0)%nat) (Hsources : forall s, s ∈ sources -> length s = length target).
Notation DIM := (length target).
Notation normalized := (normalize_sources ROps eps (11 / 10) target sources).
Notation rho := (mls_radius ROps eps (11 / 10) target sources).

(** The Vandermonde matrix and the weights of the neighbours. *)
Definition mls_rows : list (list R) := (fun y => monomial_value ROps y <$> words DIM Degree) <$> normalized.
Definition mls_V : nat -> nat -> R := fun m k => default 0 (mls_rows !! m ≫= fun row => row !! k).
Definition mls_phi : nat -> R := fun m => default 0 ((crbf_point ROps rlit ln f <$> normalized) !! m).

Lemma radius_positive : 0 < rho.
Proof using Heps.
  unfold mls_radius. real_ops.
  assert (G : forall l r, 0 < r -> 0 < foldl (fun radius s => kmax ROps radius (distance_pp ROps s target)) r l).
  { induction l as [|s l IH]; intros r Hr; [done|]. cbn [foldl]. apply IH. unfold kmax. real_ops.
    destruct (Rltb r _) eqn:E; [apply Rltb_lt in E; lra|done]. }
  specialize (G sources eps Heps). lra.
Qed.
Lemma normalized_length y : y ∈ normalized -> length y = DIM.
Proof using Hsources.
  unfold normalize_sources. intros (s & -> & Hs)%elem_of_list_fmap. rewrite zip_with_length, (Hsources s Hs). apply Nat.min_id.
Qed.
Lemma rows_ok : mapM (evaluate_basis ROps Degree) normalized = Some mls_rows.
Proof using Hdim Hsources.
  unfold mls_rows. apply mapM_Some.
  assert (G : forall l, (forall y, y ∈ l -> length y = DIM) -> Forall2 (fun y row => evaluate_basis ROps Degree y = Some row) l ((fun y => monomial_value ROps y <$> words DIM Degree) <$> l)).
  { induction l as [|y l IH]; intros Hl; cbn; constructor.
    - pose proof (Hl y ltac:(left)) as Hy. rewrite (evaluate_basis_ok ROps y Degree) by lia. by rewrite Hy.
    - apply IH. intros y' Hy'. apply Hl. by right. }
  apply G. apply normalized_length.
Qed.
Lemma normalize_length : length normalized = length sources.
Proof. unfold normalize_sources. apply fmap_length. Qed.
(** A source is the affine image of its normalised point, the target that of the origin. *)
Lemma source_affine m s y : sources !! m = Some s -> normalized !! m = Some y -> s = affine target rho y.
Proof using Heps Hsources.
  intros Hs Hy. unfold normalize_sources in Hy. rewrite list_lookup_fmap, Hs in Hy. apply (inj Some) in Hy. subst y.
  apply affine_inverse; [apply radius_positive|]. apply Hsources. by eapply elem_of_list_lookup_2.
Qed.
Lemma target_affine : target = affine target rho (replicate DIM 0).
Proof. apply affine_zero. Qed.

(** The error of the interpolation of a polynomial at the target.  [K] depends on the polynomial and the points only;
    [r] bounds the entries the diagonalisation left off the diagonal (at most eps), [d] the singular values. *)
Theorem C48_reproduces (b : list nat -> R) : exists K, 0 <= K /\ forall fuel ES U r d,
  let n := basis_size DIM Degree in
  let moment := freeze ROps n (moment_matrix ROps (length sources) mls_phi mls_V) in
  symmetric_svd ROps rlit rsign eps fuel n moment = Some (ES, U) ->
  is_singular ROps rlit eps n (freeze_row ROps n (fun i => ES i i)) = false ->
  0 < d -> 0 <= r -> (forall i, (i < n)%nat -> d <= Rabs (ES i i)) -> (forall i j, (i < j < n)%nat -> Rabs (ES i j) <= r) ->
  exists coeffs, mls_coefficients ROps rlit ln rsign eps (11 / 10) fuel f Degree target sources = Some coeffs /\
    length coeffs = length sources /\
    Rabs (mls_interpolate ROps coeffs (polynomial DIM Degree b <$> sources) - polynomial DIM Degree b target) <= K * (r / d).
Proof using Heps Hdim Hsources.
  destruct (span_affine DIM Hdim target rho Degree b eq_refl) as [a Ha].
  set (n := basis_size DIM Degree).
  assert (Hn : n = length (words DIM Degree)) by (unfold n; by rewrite basis_size_choose, words_length).
  set (K0 := rsum n (fun k => Rabs (a (default [] (words DIM Degree !! k))))).
  assert (HK0 : 0 <= K0) by (apply rsum_nonneg; intros; apply Rabs_pos).
  exists (K0 * (INR n * INR n)). split.
  { apply Rmult_le_pos; [done|]. apply Rmult_le_pos; apply pos_INR. }
  intros fuel ES U r d n' moment Hsvd Hreg Hd Hr0 HD Hr. subst n'.
  assert (Hn0 : (0 < n)%nat).
  { rewrite Hn. assert ([] ∈ words DIM Degree) as H0; [|by apply elem_of_list_lookup_1 in H0 as [i H0]; apply lookup_lt_Some in H0; lia].
    apply words_spec; [done|]. split_and!; [constructor..|cbn; lia]. }
  destruct (C48_solve fuel eps n (length sources) mls_phi mls_V ES U r d ltac:(lra) Hn0 Hsvd Hreg Hd Hr0 HD Hr) as (coeff & Hc & Hcol).
  exists (coeff <$> seq 0 (length sources)). split_and!.
  - unfold mls_coefficients. cbv zeta. rewrite rows_ok. cbn [mbind option_bind]. rewrite normalize_length.
    fold n. change (λ nb k : nat, default (o_zero ROps) (mls_rows !! nb ≫= λ row : list R, row !! k)) with mls_V.
    change (λ nb : nat, default (o_zero ROps) ((crbf_point ROps rlit ln f <$> normalized) !! nb)) with mls_phi.
    by rewrite Hc.
  - by rewrite fmap_length, seq_length.
  - assert (Hw0 : words DIM Degree !! 0%nat = Some []). { unfold words. cbn. destruct (length target); [lia|done]. }
    set (g := fun m => rsum n (fun k => a (default [] (words DIM Degree !! k)) * mls_V m k)).
    assert (Hvals : polynomial DIM Degree b <$> sources = g <$> seq 0 (length sources)).
    { apply list_eq. intros m. rewrite !list_lookup_fmap. destruct (sources !! m) as [s|] eqn:Hs.
      - rewrite lookup_seq_lt by (by eapply lookup_lt_Some). cbn [fmap option_fmap option_map plus]. apply f_equal.
        destruct (lookup_lt_is_Some_2 normalized m) as [y Hy].
        { rewrite normalize_length. by eapply lookup_lt_Some. }
        assert (Hly : length y = DIM) by (apply normalized_length; by eapply elem_of_list_lookup_2).
        rewrite (source_affine m s y Hs Hy). rewrite (Ha y Hly).
        unfold polynomial, g. rewrite (lsum_rsum _ _ []), <- Hn. apply rsum_ext. intros k Hk. f_equal.
        unfold mls_V, mls_rows. rewrite list_lookup_fmap, Hy. cbn [fmap option_fmap option_map mbind option_bind]. rewrite list_lookup_fmap.
        destruct (words DIM Degree !! k) as [w|] eqn:Hw; [done|]. apply lookup_ge_None in Hw. lia.
      - rewrite lookup_seq_ge; [done|]. by apply lookup_ge_None. }
    rewrite Hvals, interpolate_rsum.
    assert (Htgt : polynomial DIM Degree b target = a []).
    { rewrite target_affine at 2. rewrite Ha by apply replicate_length. by apply polynomial_at_zero. }
    rewrite Htgt. unfold g.
    assert (Hint : rsum (length sources) (fun m => coeff m * rsum n (fun k => a (default [] (words DIM Degree !! k)) * mls_V m k)) - a [] =
      rsum n (fun k => a (default [] (words DIM Degree !! k)) * (rsum (length sources) (fun m => coeff m * mls_V m k) - delta 0 k))).
    { rewrite (rsum_ext (length sources) _ (fun m => rsum n (fun k => a (default [] (words DIM Degree !! k)) * (coeff m * mls_V m k)))).
      2: { intros m _. rewrite <- rsum_scal. apply rsum_ext. intros; ring. }
      rewrite rsum_swap.
      replace (a []) with (rsum n (fun k => delta 0 k * a (default [] (words DIM Degree !! k)))) by (rewrite rsum_delta_l by done; by rewrite Hw0).
      rewrite <- rsum_minus. apply rsum_ext. intros k _. rewrite rsum_scal. ring. }
    rewrite Hint. eapply Rle_trans; [apply rsum_abs|].
    rewrite Rmult_assoc. unfold K0. rewrite <- rsum_scal_r. apply rsum_le. intros k Hk. rewrite Rabs_mult.
    apply Rmult_le_compat_l; [apply Rabs_pos|]. by apply Hcol.
Qed.
End Points.

(** If the diagonalisation is complete the polynomial is reproduced exactly. *)
Theorem C48_exact eps f Degree target sources b fuel ES U :
  0 < eps -> (length target > 0)%nat -> (forall s, s ∈ sources -> length s = length target) ->
  let n := basis_size (length target) Degree in
  symmetric_svd ROps rlit rsign eps fuel n (freeze ROps n (moment_matrix ROps (length sources) (mls_phi eps f target sources) (mls_V eps Degree target sources))) = Some (ES, U) ->
  is_singular ROps rlit eps n (freeze_row ROps n (fun i => ES i i)) = false ->
  (forall i j, (i < j < n)%nat -> ES i j = 0) ->
  exists coeffs, mls_coefficients ROps rlit ln rsign eps (11 / 10) fuel f Degree target sources = Some coeffs /\
    mls_interpolate ROps coeffs (polynomial (length target) Degree b <$> sources) = polynomial (length target) Degree b target.
Proof.
  intros He Hdim Hs n Hsvd Hreg Hoff.
  destruct (C48_reproduces eps He f Degree target sources Hdim Hs b) as (K & _ & H).
  assert (Hd : exists d, 0 < d /\ forall i, (i < n)%nat -> d <= Rabs (ES i i)).
  { assert (Hk : forall i, (i < n)%nat -> ES i i <> 0).
    { intros i Hi E. pose proof (not_singular _ _ _ Hreg i Hi) as Hk. apply kept_nonzero in Hk; [|lra]. by rewrite freeze_row_ok in Hk. }
    clearbody n. clear -Hk. induction n as [|n IH].
    - exists 1. split; [lra|]. intros; lia.
    - destruct IH as (d & Hd & HD). { intros i Hi. apply Hk. lia. }
      exists (Rmin d (Rabs (ES n n))). split.
      + apply Rmin_glb_lt; [done|]. apply Rabs_pos_lt, Hk. lia.
      + intros i Hi. destruct (decide (i = n)) as [->|Hne]; [apply Rmin_r|].
        eapply Rle_trans; [apply Rmin_l|]. apply HD. lia. }
  destruct Hd as (d & Hd & HD).
  destruct (H fuel ES U 0 d Hsvd Hreg Hd (Rle_refl 0) HD) as (coeffs & H1 & _ & H2).
  { intros i j Hij. rewrite Hoff by done. rewrite Rabs_R0. lra. }
  exists coeffs. split; [done|]. replace (K * (0 / d)) with 0 in H2 by (field; lra).
  apply Rminus_diag_uniq. destruct (Req_dec (mls_interpolate ROps coeffs (polynomial (length target) Degree b <$> sources) - polynomial (length target) Degree b target) 0) as [|Hne]; [done|].
  apply Rabs_pos_lt in Hne. lra.
Qed.

(** A singular moment matrix: some monomials are dropped.  If both diagonalisations are
    complete and the second matrix is found regular by the pseudo-inverse, the kept monomials are still reproduced. *)
Theorem C48_singular fuel eps n nb phi V ES U E (perm : nat -> nat) ES2 U2 : 0 <= eps -> (0 < n)%nat ->
  let D := freeze_row ROps n (fun i => ES i i) in
  let tolerance := svd_tolerance ROps rlit eps n D in
  let moment := freeze ROps n (matrix_from_svd ROps n D U) in
  let dropped : list nat := perm <$> zero_rows ROps n tolerance E in
  symmetric_svd ROps rlit rsign eps fuel n (freeze ROps n (moment_matrix ROps nb phi V)) = Some (ES, U) ->
  is_singular ROps rlit eps n D = true ->
  row_echelon ROps (S (2 * n)) n 0 0 tolerance moment Datatypes.id = Some (E, perm) ->
  symmetric_svd ROps rlit rsign eps fuel n (freeze ROps n (eliminate_rows rlit dropped moment)) = Some (ES2, U2) ->
  (forall i j, (i < j < n)%nat -> ES i j = 0) -> (forall i j, (i < j < n)%nat -> ES2 i j = 0) ->
  (forall i, (i < n)%nat -> kept eps n (fun i => ES2 i i) i = true) ->
  exists coeff, mls_solve ROps rlit rsign eps fuel n nb phi V = Some coeff /\
    forall j, (j < n)%nat -> j ∉ dropped -> rsum nb (fun m => coeff m * V m j) = delta 0 j.
Proof.
  intros He Hn D tolerance moment dropped Hsvd Hsing Hech Hsvd2 Hoff Hoff2 Hkept.
  eexists. split.
  { unfold mls_solve. cbv zeta. rewrite Hsvd. cbn [mbind option_bind]. fold D. rewrite Hsing. fold tolerance moment.
    rewrite Hech. cbn [mbind option_bind]. fold dropped. rewrite Hsvd2. done. }
  intros j Hj Hjd. rewrite coefficients_against by done.
  (* the rebuilt moment matrix is the moment matrix *)
  assert (HM : forall i k, (i < n)%nat -> (k < n)%nat -> moment i k = moment_matrix ROps nb phi V i k).
  { intros i k Hi Hk. destruct (C47_similarity fuel n eps _ ES U He (moment_symmetric n nb phi V) Hsvd) as (_ & HA & _).
    specialize (HA i k Hi Hk). rewrite freeze_ok in HA by done. rewrite <- HA, conj_expand. unfold moment.
    rewrite freeze_ok, matrix_from_svd_ok by done. apply rsum_ext. intros l Hl.
    rewrite (rsum_ext n _ (fun m => delta m l * (U i l * D l * U k m))); [by rewrite rsum_delta|].
    intros m Hm. destruct (decide (m = l)) as [->|Hne].
    - rewrite delta_same, upper_le by lia. unfold D. rewrite freeze_row_ok by done. ring.
    - rewrite delta_other by done. assert (upper ES l m = 0) as ->; [|ring]. unfold upper. apply Hoff. lia. }
  assert (Hsym : Symmetric n (freeze ROps n (eliminate_rows rlit dropped moment))).
  { intros i k Hi Hk. rewrite !freeze_ok by done. unfold eliminate_rows.
    destruct (decide (i ∈ dropped ∨ k ∈ dropped)) as [H|H].
    - rewrite (bool_decide_true (i ∈ dropped ∨ k ∈ dropped)) by done.
      rewrite (bool_decide_true (k ∈ dropped ∨ i ∈ dropped)) by tauto.
      destruct (decide (i = k)) as [->|Hne]; [done|]. by rewrite !bool_decide_false by done.
    - rewrite (bool_decide_false (i ∈ dropped ∨ k ∈ dropped)) by done.
      rewrite (bool_decide_false (k ∈ dropped ∨ i ∈ dropped)) by tauto.
      rewrite !HM by done. unfold moment_matrix. apply rsum_ext. intros. real_ops. ring. }
  assert (Hd : exists d, 0 < d /\ forall i, (i < n)%nat -> d <= Rabs (ES2 i i)).
  { assert (Hk : forall i, (i < n)%nat -> ES2 i i <> 0).
    { intros i Hi. apply (kept_nonzero eps n (fun i => ES2 i i) i He). by apply Hkept. }
    clear -Hk. induction n as [|n IH].
    - exists 1. split; [lra|]. intros; lia.
    - destruct IH as (d & Hd & HD). { intros i Hi. apply Hk. lia. }
      exists (Rmin d (Rabs (ES2 n n))). split.
      + apply Rmin_glb_lt; [done|]. apply Rabs_pos_lt, Hk. lia.
      + intros i Hi. destruct (decide (i = n)) as [->|Hne]; [apply Rmin_r|].
        eapply Rle_trans; [apply Rmin_l|]. apply HD. lia. }
  destruct Hd as (d & Hd & HD).
  pose proof (C47_inverse n eps _ fuel ES2 U2 0 d He Hsym Hsvd2 Hkept Hd (Rle_refl 0) HD) as Hinv.
  specialize (Hinv ltac:(intros; rewrite Hoff2 by done; rewrite Rabs_R0; lra) 0%nat j Hn Hj).
  replace (INR n * INR n * (0 / d)) with 0 in Hinv by (field; lra).
  transitivity (mmul n (pseudo_inverse ROps rlit eps n (fun i => ES2 i i) U2) (freeze ROps n (eliminate_rows rlit dropped moment)) 0%nat j).
  - unfold mmul. apply rsum_ext. intros i Hi. rewrite !freeze_ok by done. f_equal.
    { apply pseudo_inverse_ext. intros k Hk. by rewrite freeze_row_ok. }
    unfold eliminate_rows, eliminate_columns. destruct (decide (i ∈ dropped)) as [Hid|Hid].
    + rewrite (bool_decide_true (i ∈ dropped ∨ j ∈ dropped)) by tauto. rewrite (bool_decide_false (i = j)) by congruence.
      apply rsum_zero. intros m _. rewrite bool_decide_true by done. unfold rlit. real_ops. ring.
    + rewrite (bool_decide_false (i ∈ dropped ∨ j ∈ dropped)) by tauto. rewrite HM by done. unfold moment_matrix. apply rsum_ext. intros m _.
      rewrite bool_decide_false by done. done.
  - apply Rminus_diag_uniq. match goal with |- ?x = 0 => destruct (Req_dec x 0) as [|Hne]; [done|] end.
    apply Rabs_pos_lt in Hne. lra.
Qed.

(** Two sources around the target on a line, linear polynomials: the hypotheses of [C48_exact] hold. *)
Lemma example_distance x : distance_pp ROps [x] [0] = Rabs x.
Proof.
  unfold distance_pp, sum_squares. cbn [zip_with foldl]. real_ops. rewrite <- sqrt_Rsqr_abs. f_equal. unfold Rsqr. ring.
Qed.
Lemma example_normalized : normalize_sources ROps (1 / 100) (11 / 10) [0] [[1]; [-1]] = [[10 / 11]; [- (10 / 11)]].
Proof.
  unfold normalize_sources, mls_radius. cbn [foldl fmap list_fmap zip_with]. rewrite !example_distance.
  rewrite (Rabs_right 1), (Rabs_left (-1)) by lra. unfold kmax. real_ops.
  destruct (Rltb (1 / 100) 1) eqn:E; [|apply Rltb_ge in E; lra].
  destruct (Rltb 1 (- -1)) eqn:E1; [apply Rltb_lt in E1; lra|].
  apply f_equal2; [apply f_equal2; [field|done]|]. apply f_equal2; [apply f_equal2; [field|done]|done].
Qed.
Lemma example_phi m : (m < 2)%nat -> mls_phi (1 / 100) Wendland0 [0] [[1]; [-1]] m = 1 / 121.
Proof.
  intros Hm. unfold mls_phi. rewrite example_normalized. cbn [fmap list_fmap].
  assert (E : forall x, Rabs x = 10 / 11 -> crbf_point ROps rlit ln Wendland0 [x] = 1 / 121).
  { intros x Hx. unfold crbf_point. cbn [length replicate]. change (o_zero ROps) with 0. rewrite example_distance, Hx.
    destruct (C45_inside Wendland0 (10 / 11)) as [-> _]; [rewrite Rabs_right; lra|]. rewrite Rabs_right by lra. unbody. field. }
  destruct m as [|[|m]]; [| |lia]; cbn; apply E; [rewrite Rabs_right; lra|rewrite Rabs_left; lra].
Qed.
Lemma example_V : mls_V (1 / 100) 1 [0] [[1]; [-1]] 0 0 = 1 /\ mls_V (1 / 100) 1 [0] [[1]; [-1]] 1 0 = 1 /\
  mls_V (1 / 100) 1 [0] [[1]; [-1]] 0 1 = 10 / 11 /\ mls_V (1 / 100) 1 [0] [[1]; [-1]] 1 1 = - (10 / 11).
Proof.
  unfold mls_V, mls_rows. rewrite example_normalized. change (words (length [0]) 1) with [[]; [0%nat]].
  cbn. real_ops. split_and!; lra.
Qed.
Example C48_example : let n := basis_size (length [0]) 1 in exists ES U,
  symmetric_svd ROps rlit rsign (1 / 100) 1 n (freeze ROps n (moment_matrix ROps (length [[1]; [-1]]) (mls_phi (1 / 100) Wendland0 [0] [[1]; [-1]]) (mls_V (1 / 100) 1 [0] [[1]; [-1]]))) = Some (ES, U) /\
  is_singular ROps rlit (1 / 100) n (freeze_row ROps n (fun i => ES i i)) = false /\
  (forall i j, (i < j < n)%nat -> ES i j = 0).
Proof.
  change (basis_size (length [0]) 1) with 2%nat. cbv zeta. change (length [[1]; [-1]]) with 2%nat.
  set (M := freeze ROps 2 (moment_matrix ROps 2 (mls_phi (1 / 100) Wendland0 [0] [[1]; [-1]]) (mls_V (1 / 100) 1 [0] [[1]; [-1]]))).
  destruct example_V as (V00 & V10 & V01 & V11).
  assert (HM : M 0%nat 0%nat = 2 / 121 /\ M 0%nat 1%nat = 0 /\ M 1%nat 1%nat = 200 / 14641).
  { unfold M. rewrite !freeze_ok by lia. unfold moment_matrix, sum_below. cbn [seq foldl]. real_ops.
    rewrite !example_phi by lia. rewrite V00, V10, V01, V11. split_and!; field. }
  destruct HM as (M00 & M01 & M11). clearbody M.
  exists M, (identity rlit). split_and!.
  - unfold symmetric_svd. cbn [svd_loop]. unfold svd_step. destruct (argmax_upper ROps 2 M) as [[m p] q] eqn:E.
    destruct (argmax_ok 2 M m p q E) as [_ Hpq]. real_ops. destruct (Rleb m (1 / 100)) eqn:EL; [done|]. exfalso.
    assert (1 / 100 < m). { destruct (Rle_dec m (1 / 100)) as [H|H]; [apply Rleb_le in H; congruence|lra]. }
    destruct (Hpq ltac:(lra)) as [Hp Hv]. assert (p = 0%nat /\ q = 1%nat) as [-> ->] by lia. rewrite M01, Rabs_R0 in Hv. lra.
  - unfold is_singular. apply not_true_iff_false. intros H. apply existsb_exists in H as (i & Hi & H). apply in_seq in Hi.
    rewrite (svd_tolerance_ext (1 / 100) 2 _ (fun i => M i i)) in H by (intros; by rewrite freeze_row_ok).
    rewrite freeze_row_ok in H by lia. unfold svd_tolerance, max_eigen in H. cbn [seq foldl] in H. rewrite !t_abs_Rabs in H.
    rewrite M00, M11 in H. rewrite (Rabs_right (2 / 121)), (Rabs_right (200 / 14641)) in H by lra. unfold kmax, rlit in H. real_ops.
    destruct (Rltb (2 / 121) 0) eqn:E1; [apply Rltb_lt in E1; lra|].
    destruct (Rltb (200 / 14641) (2 / 121)) eqn:E2; [|apply Rltb_ge in E2; lra].
    change (Z.of_nat 2) with 2%Z in H. apply Rleb_le in H.
    assert (i = 0 \/ i = 1)%nat as [-> | ->] by lia.
    + rewrite M00, Rabs_right in H by lra. lra.
    + rewrite M11, Rabs_right in H by lra. lra.
  - intros i j Hij. assert (i = 0 /\ j = 1)%nat as [-> ->] by lia. done.
Qed.

(** A singular case: a single source at the target, weight 1; the linear monomial is dropped. *)
Lemma svd_diagonal eps M : 0 <= eps -> M 0%nat 1%nat = 0 -> symmetric_svd ROps rlit rsign eps 1 2 M = Some (M, identity rlit).
Proof.
  intros He M01. unfold symmetric_svd. cbn [svd_loop]. unfold svd_step. destruct (argmax_upper ROps 2 M) as [[m p] q] eqn:E.
  destruct (argmax_ok 2 M m p q E) as [_ Hpq]. real_ops. destruct (Rleb m eps) eqn:EL; [done|]. exfalso.
  assert (eps < m). { destruct (Rle_dec m eps) as [H|H]; [apply Rleb_le in H; congruence|lra]. }
  destruct (Hpq ltac:(lra)) as [Hp Hv]. assert (p = 0%nat /\ q = 1%nat) as [-> ->] by lia. rewrite M01, Rabs_R0 in Hv. lra.
Qed.
Lemma echelon_singular t M : 0 < t -> t <= 1 -> M 0%nat 0%nat = 1 -> M 0%nat 1%nat = 0 -> M 1%nat 0%nat = 0 -> M 1%nat 1%nat = 0 ->
  exists E perm, row_echelon ROps 5 2 0 0 t M Datatypes.id = Some (E, perm) /\ perm <$> zero_rows ROps 2 t E = [1%nat].
Proof.
  intros Ht Ht1 M00 M01 M10 M11.
  assert (L1 : Rltb 0 1 = true) by (apply Rltb_lt; lra). assert (L2 : Rltb 1 0 = false) by (apply Rltb_ge; lra).
  assert (L3 : Rltb 0 0 = false) by (apply Rltb_ge; lra). assert (L4 : Rltb 1 t = false) by (apply Rltb_ge; lra).
  assert (L5 : Rltb 0 t = true) by (apply Rltb_lt; lra).
  assert (A0 : Rabs 0 = 0) by apply Rabs_R0. assert (A1 : Rabs 1 = 1) by (apply Rabs_right; lra).
  cbn [row_echelon]. rewrite bool_decide_eq_true_2 by lia.
  assert (find_pivot ROps 2 0 0 M = 0%nat) as ->.
  { unfold find_pivot. cbn [seq foldl Nat.sub]. rewrite !t_abs_Rabs, M00, A1. real_ops. rewrite L1. cbn [snd]. rewrite ?t_abs_Rabs, ?M10, ?A0. by rewrite L2. }
  rewrite t_abs_Rabs, M00, A1. real_ops. rewrite L4. rewrite (bool_decide_eq_true_2 (1 < 2 ∧ 1 < 2)%nat) by lia.
  set (M1 := freeze ROps 2 (eliminate_below ROps 0 0 (freeze ROps 2 (fun i : nat => M (swap_index 0 0 i))))).
  assert (M1 0%nat 0%nat = 1 /\ M1 0%nat 1%nat = 0 /\ M1 1%nat 0%nat = 0 /\ M1 1%nat 1%nat = 0) as (N00 & N01 & N10 & N11).
  { unfold M1. rewrite !freeze_ok by lia. unfold eliminate_below. rewrite !freeze_ok by lia.
    change (swap_index 0 0 0) with 0%nat. change (swap_index 0 0 1) with 1%nat. rewrite M00, M01, M10, M11.
    rewrite (bool_decide_eq_true_2 (0 <= 0)%nat), (bool_decide_eq_false_2 (1 <= 0)%nat), (bool_decide_eq_true_2 (0 = 0)%nat), (bool_decide_eq_false_2 (1 = 0)%nat), (bool_decide_eq_false_2 (1 < 0)%nat) by lia.
    real_ops. split_and!; lra. }
  clearbody M1.
  assert (find_pivot ROps 2 1 1 M1 = 0%nat) as ->.
  { unfold find_pivot. cbn [seq foldl Nat.sub]. rewrite !t_abs_Rabs, N11, A0. real_ops. by rewrite L3. }
  rewrite t_abs_Rabs, N01, A0, L5.
  rewrite (bool_decide_eq_false_2 (1 < 2 ∧ 2 < 2)%nat) by lia.
  exists M1, (fun i => Datatypes.id (swap_index 0 0 i)). split; [done|].
  assert (R0 : row_max ROps 2 0 M1 = 1). { unfold row_max. cbn [seq foldl Nat.sub]. rewrite !t_abs_Rabs, N00, N01, A0, A1. real_ops. by rewrite L1, L2. }
  assert (R1 : row_max ROps 2 1 M1 = 0). { unfold row_max. cbn [seq foldl Nat.sub]. rewrite !t_abs_Rabs, N11, A0. real_ops. by rewrite L3. }
  unfold zero_rows. cbn [seq]. rewrite filter_cons_False by (rewrite R0; real_ops; by rewrite L4).
  rewrite filter_cons_True by (rewrite R1; real_ops; done). done.
Qed.
Example C48_singular_example : let n := 2%nat in let phi := fun _ : nat => 1 in let V := fun _ j : nat => if decide (j = 0%nat) then 1 else 0 in
  exists ES U E perm ES2 U2,
  let D := freeze_row ROps n (fun i => ES i i) in
  let tolerance := svd_tolerance ROps rlit (1 / 100) n D in
  let moment := freeze ROps n (matrix_from_svd ROps n D U) in
  let dropped : list nat := perm <$> zero_rows ROps n tolerance E in
  symmetric_svd ROps rlit rsign (1 / 100) 1 n (freeze ROps n (moment_matrix ROps 1 phi V)) = Some (ES, U) /\
  is_singular ROps rlit (1 / 100) n D = true /\
  row_echelon ROps (S (2 * n)) n 0 0 tolerance moment Datatypes.id = Some (E, perm) /\ dropped = [1%nat] /\
  symmetric_svd ROps rlit rsign (1 / 100) 1 n (freeze ROps n (eliminate_rows rlit dropped moment)) = Some (ES2, U2) /\
  (forall i j, (i < j < n)%nat -> ES i j = 0) /\ (forall i j, (i < j < n)%nat -> ES2 i j = 0) /\
  (forall i, (i < n)%nat -> kept (1 / 100) n (fun i => ES2 i i) i = true).
Proof.
  intros n phi V. unfold n.
  set (M := freeze ROps 2 (moment_matrix ROps 1 phi V)).
  assert (M 0%nat 0%nat = 1 /\ M 0%nat 1%nat = 0 /\ M 1%nat 1%nat = 0) as (M00 & M01 & M11).
  { unfold M. rewrite !freeze_ok by lia. unfold moment_matrix, sum_below, phi, V. cbn. real_ops. repeat case_decide; try done; split_and!; lra. }
  clearbody M. set (D := freeze_row ROps 2 (fun i => M i i)).
  assert (D 0%nat = 1 /\ D 1%nat = 0) as [D0 D1] by (unfold D; rewrite !freeze_row_ok by lia; done).
  assert (A0 : Rabs 0 = 0) by apply Rabs_R0. assert (A1 : Rabs 1 = 1) by (apply Rabs_right; lra).
  assert (Tol : forall D : nat -> R, D 0%nat = 1 -> (D 1%nat = 0 \/ D 1%nat = 1) -> svd_tolerance ROps rlit (1 / 100) 2 D = 2 / 100).
  { intros D' E0 E1. unfold svd_tolerance, max_eigen. cbn [seq foldl]. rewrite !t_abs_Rabs. unfold kmax, rlit. real_ops. rewrite E0, A1.
    destruct (Rltb 1 0) eqn:E2; [apply Rltb_lt in E2; lra|].
    destruct E1 as [-> | ->]; rewrite ?A0, ?A1.
    - destruct (Rltb 0 1) eqn:E3; [|apply Rltb_ge in E3; lra]. change (IZR (Z.of_nat 2)) with 2. lra.
    - destruct (Rltb 1 1) eqn:E3; change (IZR (Z.of_nat 2)) with 2; lra. }
  set (moment := freeze ROps 2 (matrix_from_svd ROps 2 D (identity rlit))).
  assert (moment 0%nat 0%nat = 1 /\ moment 0%nat 1%nat = 0 /\ moment 1%nat 0%nat = 0 /\ moment 1%nat 1%nat = 0) as (N00 & N01 & N10 & N11).
  { unfold moment. rewrite !freeze_ok by lia. unfold matrix_from_svd, sum_below. cbn. unfold identity, rlit. cbn. real_ops. rewrite M00, M11; repeat case_bool_decide; try done; split_and!; lra. }
  destruct (echelon_singular (2 / 100) moment) as (E & perm & HE & Hdrop); [lra..|done|done|done|done|].
  set (M2 := freeze ROps 2 (eliminate_rows rlit [1%nat] moment)).
  assert (M2 0%nat 0%nat = 1 /\ M2 0%nat 1%nat = 0 /\ M2 1%nat 1%nat = 1) as (P00 & P01 & P11).
  { unfold M2. rewrite !freeze_ok by lia. unfold eliminate_rows.
    rewrite (bool_decide_eq_false_2 (0%nat ∈ [1%nat] ∨ 0%nat ∈ [1%nat])) by (rewrite elem_of_list_singleton; lia).
    rewrite (bool_decide_eq_true_2 (0%nat ∈ [1%nat] ∨ 1%nat ∈ [1%nat])) by (rewrite !elem_of_list_singleton; lia).
    rewrite (bool_decide_eq_true_2 (1%nat ∈ [1%nat] ∨ 1%nat ∈ [1%nat])) by (rewrite !elem_of_list_singleton; lia). unfold rlit. cbn. done. }
  exists M, (identity rlit), E, perm, M2, (identity rlit). cbv zeta.
  assert (svd_tolerance ROps rlit (1 / 100) 2 (freeze_row ROps 2 (fun i => M i i)) = 2 / 100) as HT.
  { apply Tol; rewrite freeze_row_ok by lia; auto. }
  rewrite HT.
  split_and!.
  - apply svd_diagonal; [lra|done].
  - unfold is_singular. apply existsb_exists. exists 1%nat. split; [cbn; auto|]. rewrite HT.
    rewrite freeze_row_ok, M11 by lia. real_ops. apply Rleb_le. rewrite ?t_abs_Rabs. rewrite A0. lra.
  - exact HE.
  - exact Hdrop.
  - rewrite Hdrop. apply svd_diagonal; [lra|]. done.
  - intros i j Hij. assert (i = 0 /\ j = 1)%nat as [-> ->] by lia. done.
  - intros i j Hij. assert (i = 0 /\ j = 1)%nat as [-> ->] by lia. done.
  - intros i Hi. unfold kept. rewrite Tol; auto. apply negb_true_iff, not_true_iff_false. intros H. apply Rleb_le in H.
    assert (i = 0 \/ i = 1)%nat as [-> | ->] by lia; rewrite ?P00, ?P11, A1 in H; lra.
Qed.

Print Assumptions C48_solve.
Print Assumptions C48_reproduces.
Print Assumptions C48_exact.
Print Assumptions C48_singular.
