(** C98 continued: the DenseBox implementation in floating point on points away from the faces of the cells. *)
From Coq Require Import Reals Lra SpecFloat Sorting.Sorted.
From Flocq Require Import Core IEEE754.BinarySingleNaN.
From Verif Require Import IeeeSpec IeeeModel IeeeProof IeeeBoxProof BuildFloatProof GridFloatModel GridFloatProof BoxSpec PropertiesIeee TraversalSpec PropertiesTraversal PropertiesDenseBox.
From Coq Require Import Lra.
Local Open Scope nat_scope.

(** A coordinate x with index i on the axis a (one of the cells of the axis) keeps a distance of (DIM + 10) 2^-prec (i + 1) h from the two
    faces of its cell; to the lower face of the first cell, where the grid begins, it need not. *)
Definition OffFaces (f : fmt) (DIM : nat) (a : faxis) (x : spec_float) : Prop :=
  exists i n, f_coord_index f a x = Some i /\ f_extent f a = Some n /\ (0 <= i < n)%Z /\
  let h := SF2R radix2 (fa_h a) in let m := SF2R radix2 (fa_min a) in
  let d := ((INR DIM + 10) * bpow radix2 (- f_prec f) * (IZR i + 1) * h)%R in
  ((i = 0%Z /\ m <= SF2R radix2 x) \/ (m + IZR i * h + d <= SF2R radix2 x))%R /\ (SF2R radix2 x <= m + (IZR i + 1) * h - d)%R.

Section Safe.
Context (f : fmt) {Hf : OkFmt f}.
Hypothesis big : (20 <= f_prec f)%Z.
Hypothesis wide : (128 <= f_emax f)%Z.
Notation prec := (f_prec f).
Notation emax := (f_emax f).
Notation V := (V emax).
Notation finite x := (ieee_finite prec emax x = true).
Notation u := (bpow radix2 (- prec)).

(** ** The digits of a cell index *)
Definition ext (a : faxis) : Z := default 0%Z (f_extent f a).
Definition idx (a : faxis) (x : spec_float) : Z := default 0%Z (f_coord_index f a x).
Definition cells (g : list faxis) : Z := foldr (fun a n => ext a * n)%Z 1%Z g.
Definition corner (a : faxis) (i : Z) : spec_float := o_add (fops f) (fa_min a) (fmul f (of_int f i) (fa_h a)).
Definition Inside (a : faxis) (x : spec_float) : Prop := f_coord_index f a x = Some (idx a x) /\ f_extent f a = Some (ext a) /\ (0 <= idx a x < ext a)%Z.
Lemma off_inside DIM a x : OffFaces f DIM a x -> Inside a x.
Proof. intros (i & n & E1 & E2 & H & _). unfold Inside, idx, ext. by rewrite E1, E2. Qed.
Lemma build_cells g : f_buildGrid f g = Some true -> (1 <= cells g <= 2 ^ 64)%Z.
Proof.
  unfold f_buildGrid. destruct (mapM (f_extent f) g) as [ns|] eqn:E; [|done]. cbn [mbind option_bind]. intros [= H].
  apply andb_true_iff in H as [H _]. apply andb_true_iff in H as [H HF]. apply andb_true_iff in H as [_ HP].
  assert (Forall (fun n => 0 < n < 2 ^ 64)%Z ns) as HN.
  { apply mapM_Some in E. clear HF. induction E as [|a n g ns Ha E IH]; [constructor|]. cbn [forallb] in HP. apply andb_true_iff in HP as [H1 H2]. constructor; [|by apply IH].
    split; [lia|]. unfold f_extent in Ha. destruct (negb _); [|injection Ha as <-; lia]. destruct (f_ceil _) as [c|]; [|done]. cbn [mbind option_bind] in Ha. unfold to_size in Ha. destruct (_ && _) eqn:Eb; [|done]. injection Ha as <-. apply andb_true_iff in Eb. lia. }
  assert (cells g = foldr Z.mul 1%Z ns) as ->.
  { apply mapM_Some in E. clear - E. induction E as [|a n g ns Ha E IH]; [done|]. simpl. fold (cells g). rewrite IH. unfold ext. by rewrite Ha. }
  assert (forall ns m, Forall (fun n => 0 < n < 2 ^ 64)%Z ns -> f_fits m ns = true -> (forall n, head ns = Some n -> n <= m)%Z -> (0 < m)%Z -> (1 <= foldr Z.mul 1 ns <= m)%Z) as HB.
  { clear. induction ns as [|n [|n' ns] IH]; intros m HN HF HH Hm.
    - simpl. lia.
    - simpl. specialize (HH n eq_refl). apply Forall_cons in HN as [HN _]. lia.
    - apply Forall_cons in HN as [Hn HN]. change (f_fits m (n :: n' :: ns)) with ((n' <? m / n)%Z && f_fits (m / n) (n' :: ns)) in HF. apply andb_true_iff in HF as [H1 H2]. apply Z.ltb_lt in H1.
      pose proof HN as HN'. apply Forall_cons in HN' as [Hn' _].
      destruct (IH (m / n)%Z HN H2) as [I1 I2]; [intros k [= <-]; lia|lia|]. change (foldr Z.mul 1%Z (n :: n' :: ns)) with (n * foldr Z.mul 1 (n' :: ns))%Z.
      pose proof (Z.mul_div_le m n ltac:(lia)). nia. }
  pose proof (HB ns (2 ^ 64 - 1)%Z HN HF) as H. destruct H as [H1 H2]; [|lia|lia].
  intros n Hn. destruct ns as [|k ns]; [done|]. injection Hn as ->. apply Forall_cons in HN as [HN _]. lia.
Qed.
Lemma index_digits g p : Forall2 Inside g p -> (cells g <= 2 ^ 64)%Z ->
  exists c, f_cellIndex f g p = Some c /\ (0 <= c < cells g)%Z /\ f_cellBox f g c = Some (zip_with (fun a x => (corner a (idx a x), corner a (idx a x + 1))) g p).
Proof.
  induction 1 as [|a x g p (E1 & E2 & Hi) HF IH]; intros HC; [exists 0%Z; simpl; split_and!; (done || lia)|].
  cbn [cells foldr] in HC. fold (cells g) in HC. assert (1 <= cells g)%Z as Hg by (clear - HF; induction HF as [|b y g p (? & ? & ?) HF IH]; simpl; [lia|]; fold (cells g); nia).
  destruct IH as (s & Es & Hs & Eb); [nia|]. exists (s * ext a + idx a x)%Z. cbn [f_cellIndex f_cellBox cells foldr zip_with]. fold (cells g). rewrite Es, E2, E1. cbn [mbind option_bind].
  assert (0 <= s * ext a + idx a x < ext a * cells g)%Z as Hr by nia. rewrite Z.mod_small by lia. split; [done|]. split; [done|].
  rewrite (Z.add_comm (s * ext a)), Z.div_add, Z.mod_add by lia. rewrite Z.div_small, Z.mod_small by lia. rewrite Z.add_0_l, Eb. done.
Qed.
Lemma index_inj g p q c : Forall2 Inside g p -> Forall2 Inside g q -> (cells g <= 2 ^ 64)%Z -> f_cellIndex f g p = Some c -> f_cellIndex f g q = Some c ->
  zip_with idx g p = zip_with idx g q.
Proof.
  intros HF. revert q c. induction HF as [|a x g p (E1 & E2 & Hi) HF IH]; intros q c HQ HC Ep Eq; [done|].
  apply Forall2_cons_inv_l in HQ as (y & q' & (F1 & F2 & Hj) & HQ & ->).
  cbn [cells foldr] in HC. fold (cells g) in HC. assert (1 <= cells g)%Z as Hg by (clear - HF; induction HF as [|b y g p (? & ? & ?) HF IH]; simpl; [lia|]; fold (cells g); nia).
  assert (cells g <= 2 ^ 64)%Z as HC' by nia.
  destruct (index_digits g p HF HC') as (s & Es & Hs & _). destruct (index_digits g q' HQ HC') as (t & Et & Ht & _).
  cbn [f_cellIndex] in Ep, Eq. rewrite Es, E2, E1 in Ep. rewrite Et, F2, F1 in Eq. cbn [mbind option_bind] in Ep, Eq. injection Ep as Ep. injection Eq as Eq.
  rewrite Z.mod_small in Ep by nia. rewrite Z.mod_small in Eq by nia.
  assert (s = t /\ idx a x = idx a y) as [-> E] by (apply (Z.div_mod_unique (ext a)); lia). cbn [zip_with]. rewrite E. f_equal. by apply (IH q' t).
Qed.

(** ** One axis *)
Lemma V_fin x : finite x -> V x = SF2R radix2 x.
Proof. intros Hz. unfold ieee_finite in Hz. apply andb_true_iff in Hz as [_ Hz]. by destruct x. Qed.
Definition Good (h : spec_float) (a : faxis) : Prop := fa_h a = h /\ finite (fa_min a) /\ (- bpow radix2 60 <= V (fa_min a))%R.
Section Axis.
Local Open Scope R_scope.
Context (DIM : nat) (h : spec_float).
Hypothesis Fh : finite h.
Hypothesis Hh : bpow radix2 (-60) <= V h <= bpow radix2 42.
Hypothesis HD : (1 <= DIM <= 1000)%nat.
Lemma INR_D : 1 <= INR DIM <= 1000.
Proof. split; [apply (le_INR 1); lia|replace 1000 with (INR 1000) by (rewrite INR_IZR_INZ; reflexivity); apply le_INR; lia]. Qed.
Lemma h_pos : 0 < V h.
Proof. pose proof (bpow_gt_0 radix2 (-60)). lra. Qed.
Lemma off_V a x : Good h a -> finite x -> OffFaces f DIM a x ->
  let i := idx a x in let d := (INR DIM + 10) * u * (IZR i + 1) * V h in
  (0 <= i < 2 ^ 31)%Z /\ V (fa_min a) <= V x /\ ((i = 0%Z /\ V (fa_min a) <= V x) \/ V (fa_min a) + IZR i * V h + d <= V x) /\ V x <= V (fa_min a) + (IZR i + 1) * V h - d /\ 0 <= d.
Proof.
  intros (Eh & Fm & Hm) Fx (i & n & E1 & E2 & Hi & HO). cbv zeta in *. assert (idx a x = i) as -> by (unfold idx; by rewrite E1). rewrite Eh in HO. rewrite <- !V_fin in HO by done.
  assert (0 <= IZR i) as Hi0 by (apply (IZR_le 0); lia). pose proof h_pos as Hp. pose proof INR_D. pose proof (u_tiny prec big) as Hu.
  assert (0 <= (INR DIM + 10) * u * (IZR i + 1) * V h) as Hd by (apply Rmult_le_pos; [|lra]; apply Rmult_le_pos; [|lra]; apply Rmult_le_pos; lra).
  assert (0 <= IZR i * V h) as Hih by (apply Rmult_le_pos; lra).
  split. { split; [lia|]. unfold f_coord_index in E1. destruct (f_floor _) as [j|]; [|done]. cbn [mbind option_bind] in E1. unfold to_int in E1. destruct (_ && _) eqn:Eb; [|done]. injection E1 as ->. apply andb_true_iff in Eb. lia. }
  split; [destruct HO as [[[_ ?]|?] _]; lra|]. split; [apply HO|]. split; [apply HO|done].
Qed.
Lemma own_corners a x : Good h a -> finite x -> Rabs (V x) <= bpow radix2 60 -> OffFaces f DIM a x ->
  let lo := corner a (idx a x) in let hi := corner a (idx a x + 1) in
  finite lo /\ finite hi /\ V lo <= V x <= V hi.
Proof.
  intros Ha Fx Bx HO. destruct (off_V a x Ha Fx HO) as (Hi & Hmx & Hlo & Hhi & Hd). destruct Ha as (Eh & Fm & Hm). cbv zeta. set (i := idx a x) in *.
  assert (Rabs (V (fa_min a)) <= bpow radix2 60) as Bm by (apply Rabs_le_inv in Bx; apply Rabs_le; lra).
  pose proof h_pos as Hp. pose proof INR_D as HDR. pose proof (u_tiny prec big) as Hu. assert (0 <= IZR i) as Hi0 by (apply (IZR_le 0); lia).
  unfold corner. rewrite Eh. unfold of_int, fmul. change (o_add (fops f)) with (SFadd prec emax).
  destruct (corner_bound prec emax big wide (fa_min a) h i Fm Fh ltac:(lia) Hh Bm) as (p & F1 & E1 & Z1 & B1).
  destruct (corner_bound prec emax big wide (fa_min a) h (i + 1) Fm Fh ltac:(lia) Hh Bm) as (q & F2 & E2 & _ & B2).
  split; [done|]. split; [done|]. rewrite E1, E2, <- (rn_id prec emax x Fx). rewrite plus_IZR in B2. apply Rabs_le_inv in B1, B2.
  set (T := IZR i) in *. set (W := V h) in *. assert (0 <= u * (T + 1) * W) as H0 by (apply Rmult_le_pos; [apply Rmult_le_pos|]; lra).
  assert (10 * (u * (T + 1) * W) <= (INR DIM + 10) * u * (T + 1) * W) as H10 by (replace ((INR DIM + 10) * u * (T + 1) * W) with ((INR DIM + 10) * (u * (T + 1) * W)) by ring; apply Rmult_le_compat_r; lra).
  assert (u * (T + 1 + 1) * W <= 2 * (u * (T + 1) * W)) as H2 by (replace (2 * (u * (T + 1) * W)) with (u * (2 * (T + 1)) * W) by ring; apply Rmult_le_compat_r; [lra|]; apply Rmult_le_compat_l; lra).
  split; apply (rn_mono prec emax).
  - destruct Hlo as [[Ei Hle]|Hle]; [rewrite (Z1 Ei); lra|]. lra.
  - lra.
Qed.
Lemma same_index a x y : Good h a -> finite x -> finite y -> OffFaces f DIM a x -> OffFaces f DIM a y -> idx a x = idx a y ->
  Rabs (V y - V x) <= V h * (1 - (INR DIM + 10) * u).
Proof.
  intros Ha Fx Fy HOx HOy E. destruct (off_V a x Ha Fx HOx) as (Hi & Hmx & Hlo & Hhi & Hd). destruct (off_V a y Ha Fy HOy) as (Hi' & Hmy & Hlo' & Hhi' & Hd'). cbv zeta in *. rewrite <- E in *.
  set (i := idx a x) in *. pose proof h_pos as Hp. pose proof INR_D as HDR. pose proof (u_tiny prec big) as Hu. assert (0 <= IZR i) as Hi0 by (apply (IZR_le 0); lia).
  set (T := IZR i) in *. set (W := V h) in *.
  assert (V (fa_min a) + T * W <= V x) as L1 by (destruct Hlo as [[Ei ?]|?]; [unfold T; rewrite Ei; lra|lra]).
  assert (V (fa_min a) + T * W <= V y) as L2 by (destruct Hlo' as [[Ei ?]|?]; [unfold T; rewrite Ei; lra|lra]).
  assert ((INR DIM + 10) * u * W <= (INR DIM + 10) * u * (T + 1) * W) as H1.
  { apply Rmult_le_compat_r; [lra|]. rewrite <- (Rmult_1_r ((INR DIM + 10) * u)) at 1. apply Rmult_le_compat_l; [apply Rmult_le_pos|]; lra. }
  apply Rabs_le. split; lra.
Qed.
End Axis.

(** ** The grid over the points *)
Lemma grid_good DIM eps pts : Forall (Forall (fun x => finite x /\ (Rabs (V x) <= bpow radix2 60)%R)) pts ->
  Forall (Good (f_cell_length f eps (Z.of_nat DIM))) (f_grid_of f DIM eps pts).
Proof.
  intros HP. unfold f_grid_of. set (P := fun x => finite x /\ (- bpow radix2 60 <= V x)%R).
  assert (forall pts b, Forall (Forall (fun x => finite x /\ (Rabs (V x) <= bpow radix2 60)%R)) pts -> Forall (fun c => P c.1) b ->
    Forall (fun c => P c.1) (foldl (fun b p => expand_box (fops f) b (map (fun x => (x, x)) p)) b pts)) as HB.
  { clear HP pts. induction pts as [|p pts IH]; intros b HP Hb; [done|]. cbn [foldl]. apply Forall_cons in HP as [Hp HP]. apply IH; [done|]. clear IH HP pts.
    revert p Hp. induction Hb as [|c b Hc Hb IH]; intros p Hp; [unfold expand_box; cbn; constructor|]. destruct p as [|x p]; [unfold expand_box; cbn; constructor|]. apply Forall_cons in Hp as [[F1 B1] Hp]. cbn. destruct c as [lo hi]. constructor; [|by apply IH].
    cbn. unfold kmin. destruct (o_ltb _ _ _); [|done]. split; [done|]. apply Rabs_le_inv in B1. lra. }
  specialize (HB pts (empty_box DIM (f_lowest f) (f_largest f)) HP). apply Forall_map. eapply Forall_impl; [apply HB|].
  - unfold empty_box. apply Forall_replicate. destruct (max_finite_ok prec emax) as (H1 & _ & H2). split; [exact H1|]. cbn [fst]. 
    pose proof (H2 (S754_zero false) eq_refl) as [_ H3]. unfold f_largest. eapply Rle_trans; [|exact H3]. pose proof (bpow_gt_0 radix2 60). change (V (S754_zero false)) with 0%R. lra.
  - intros [lo hi] [H1 H2]. split; [reflexivity|]. split; [exact H1|exact H2].
Qed.
Lemma f_point_in pts i : pts <> [] -> f_point_at pts i ∈ pts.
Proof.
  intros Hne. unfold f_point_at. destruct (Nat.lt_ge_cases i (length pts)) as [H|H]; [by apply elem_of_list_In, nth_In|].
  rewrite nth_overflow by done. destruct pts; [done|]. left.
Qed.

Section Contract.
Context (DIM : nat) (eps : spec_float) (pts : list (list spec_float)).
Hypothesis HD : 1 <= DIM <= 1000.
Hypothesis Fe : finite eps.
Hypothesis He : (bpow radix2 (-40) <= V eps <= bpow radix2 40)%R.
Hypothesis Hne : pts <> [].
Hypothesis HP : Forall (fun p => length p = DIM /\ Forall (fun x => finite x /\ (Rabs (V x) <= bpow radix2 60)%R) p) pts.
Notation g := (f_grid_of f DIM eps pts).
Notation h := (f_cell_length f eps (Z.of_nat DIM)).
Notation pt := (f_point_at pts).
Hypothesis HG : f_buildGrid f g = Some true.
Hypothesis HO : Forall (Forall2 (OffFaces f DIM) g) pts.

Lemma the_h : finite h /\ (bpow radix2 (-60) <= V h <= bpow radix2 42)%R /\ (INR DIM * (V h * V h) <= V eps * V eps * (1 + 7 * u))%R.
Proof. apply (cell_length_bound prec emax big wide); done. Qed.
Lemma the_good : Forall (Good h) g.
Proof. apply grid_good. eapply Forall_impl; [exact HP|]. by intros p [_ H]. Qed.
Lemma pt_dim i : length (pt i) = DIM.
Proof. pose proof (f_point_in pts i Hne) as Hi. rewrite Forall_forall in HP. by destruct (HP _ Hi). Qed.
Lemma pt_fin i : Forall (fun x => finite x /\ (Rabs (V x) <= bpow radix2 60)%R) (pt i).
Proof. pose proof (f_point_in pts i Hne) as Hi. rewrite Forall_forall in HP. by destruct (HP _ Hi). Qed.
Lemma pt_fin' i : Forall (fun x => finite x) (pt i).
Proof. eapply Forall_impl; [apply pt_fin|]. by intros x [H _]. Qed.
Lemma pt_point i : finite_point prec emax DIM (pt i).
Proof. split; [apply pt_dim|apply pt_fin']. Qed.
Lemma pt_off i : Forall2 (OffFaces f DIM) g (pt i).
Proof. pose proof (f_point_in pts i Hne) as Hi. rewrite Forall_forall in HO. by apply HO. Qed.
Lemma pt_inside i : Forall2 Inside g (pt i).
Proof. eapply Forall2_impl; [apply pt_off|]. intros a x. apply off_inside. Qed.
Lemma pt_cell i : exists c, f_cellIndex f g (pt i) = Some c /\ f_cell f g pts i = Z.to_nat c /\ (0 <= c)%Z /\
  f_cellBox f g c = Some (zip_with (fun a x => (corner a (idx a x), corner a (idx a x + 1))) g (pt i)).
Proof.
  destruct (build_cells g HG) as [_ HC]. destruct (index_digits g (pt i) (pt_inside i) HC) as (c & E & Hc & EB). exists c. split; [done|]. unfold f_cell. rewrite E. split_and!; (done || lia).
Qed.
Lemma contract : CellContract (f_near f eps pts) (f_hit f g eps pts) (f_cell f g pts).
Proof.
  destruct the_h as (Fh & Hh & HDh). pose proof the_good as GG. destruct (build_cells g HG) as [_ HC]. split.
  - intros a b E. destruct (pt_cell a) as (c & Ec & Ea & Hc & _). destruct (pt_cell b) as (c' & Ec' & Eb & Hc' & _). assert (c' = c) as -> by lia.
    pose proof (index_inj g _ _ c (pt_inside a) (pt_inside b) HC Ec Ec') as EI.
    unfold f_near, intersects_sp. change (o_leb (fops f)) with SFleb. change (fops f) with (FloatOps prec emax).
    apply (near_bound prec emax big wide (pt a) (pt b) (V h) eps (INR DIM + 10)); rewrite ?pt_dim; try done; try apply pt_fin'.
    { pose proof (bpow_gt_0 radix2 (-40)). lra. } { pose proof (bpow_gt_0 radix2 (-60)). lra. } { apply Hh. }
    pose proof (pt_fin' a) as Fa. pose proof (pt_fin' b) as Fb. pose proof (pt_off a) as Oa. pose proof (pt_off b) as Ob. revert EI Fa Fb Oa Ob GG. 
    generalize (pt a). generalize (pt b). generalize g at 1 2 3 4 5. clear - big wide Hf HD Fh Hh. intros g y x. revert g y. induction x as [|x xs IH]; intros g ys EI Fa Fb Oa Ob GG.
    + apply Forall2_nil_inv_r in Oa. subst. apply Forall2_nil_inv_l in Ob. subst. constructor.
    + apply Forall2_cons_inv_r in Oa as (a & g' & O1 & Oa & ->). apply Forall2_cons_inv_l in Ob as (y & ys' & O2 & Ob & ->). apply Forall_cons in Fa as [F1 Fa]. apply Forall_cons in Fb as [F2 Fb]. apply Forall_cons in GG as [G1 GG].
      cbn [zip_with] in EI. injection EI as E1 EI. constructor; [by eapply same_index|]. by apply (IH g').
  - intros a b E. destruct (pt_cell b) as (c & Ec & Eb & Hc & EB). unfold f_hit. rewrite Eb, Z2Nat.id by done. rewrite EB.
    set (bx := zip_with _ _ _). unfold f_near, intersects_sp in E. unfold intersects_sb. change (o_leb (fops f)) with SFleb in *. change (fops f) with (FloatOps prec emax) in *.
    assert (Forall2 (fun x c => finite c.1 /\ finite c.2 /\ (V c.1 <= V x <= V c.2)%R) (pt b) bx) as HB.
    { pose proof (pt_fin b) as Fb. pose proof (pt_off b) as Ob. unfold bx. clear bx EB Ec Eb E. revert Fb Ob GG. generalize (pt b). generalize g. clear - big wide Hf HD Fh Hh. intros g x. revert g. induction x as [|x xs IH]; intros g Fb Ob GG.
      - apply Forall2_nil_inv_r in Ob. subst. constructor.
      - apply Forall2_cons_inv_r in Ob as (a & g' & O1 & Ob & ->). apply Forall_cons in Fb as [[F1 B1] Fb]. apply Forall_cons in GG as [G1 GG]. cbn [zip_with].
        constructor; [|by apply IH]. cbn [fst snd]. apply (own_corners DIM h); done. }
    assert (finite_box prec emax DIM bx) as FB.
    { split; [rewrite <- (Forall2_length _ _ _ HB); apply pt_dim|]. clear - HB Hf. induction HB as [|x c xs bx (H1 & H2 & H3) HB IH]; constructor; [|done]. split_and!; [done|done|]. apply (ltb_V_false prec emax); [by apply finite_number..|]. lra. }
    assert (BoxIn SFltb (point_box (pt b)) bx) as HI.
    { pose proof (pt_fin' b) as Fb. clear - HB Hf Fb. unfold BoxIn, point_box. induction HB as [|x c xs bx (H1 & H2 & H3) HB IH]; cbn [map]; constructor; apply Forall_cons in Fb as [F1 Fb]; [|by apply IH].
      cbn [fst snd]. split; apply (ltb_V_false prec emax); try (by apply finite_number); lra. }
    assert (0 < prec)%Z as P1 by apply Hf. assert (prec < emax)%Z as P2 by apply Hf.
    destruct (C67_distances prec emax DIM P1 P2 (pt a) (pt b) (pt_point a) (pt_point b)) as [(N1 & _) HX]. destruct (HX (as_ibox prec emax DIM bx)) as (N2 & H3 & _).
    rewrite (leaf_box prec emax DIM) in N2, H3 by done. specialize (H3 HI). apply (ltb_V_false prec emax) in H3; [|done..].
    pose proof (finite_number prec emax eps Fe) as Ne. apply (leb_V prec emax) in E; [|done..]. apply (leb_V prec emax); [done..|]. lra.
Qed.
Lemma near_sym a b : f_near f eps pts a b = f_near f eps pts b a.
Proof.
  assert (0 < prec)%Z as P1 by apply Hf. assert (prec < emax)%Z as P2 by apply Hf.
  destruct (C67_distances prec emax DIM P1 P2 (pt a) (pt b) (pt_point a) (pt_point b)) as [(_ & _ & E & _) _].
  unfold f_near, intersects_sp. change (fops f) with (FloatOps prec emax). by rewrite E.
Qed.
Lemma near_refl a : f_near f eps pts a a = true.
Proof. by apply contract. Qed.
End Contract.
End Safe.

(** The whole DenseBox program in float or double, on the grid that it builds itself: finite points of at most 2^60 in magnitude,
    2^-40 <= eps <= 2^40, at most 1000 dimensions, the constructor of the grid returns normally, and every point keeps a distance
    of (DIM + 10) 2^-prec (i + 1) cells from the faces of its cell, i the index.  Then the labels are a DBSCAN clustering for the
    computed distances.  Missing: points closer to a face; the theorems ending in refuted show inputs that are clustered wrongly. *)
Theorem C98_densebox_partial : forall f, f = binary32 \/ f = binary64 -> forall V (le : V -> V -> Prop) cellvol ptvol pv DIM eps pts minpts big (star swap : bool),
  let g := f_grid_of f DIM eps pts in let near := f_near f eps pts in let hit := f_hit f g eps pts in let cell := f_cell f g pts in
  1 <= DIM <= 1000 -> ieee_finite (f_prec f) (f_emax f) eps = true -> (bpow radix2 (-40) <= SF2R radix2 eps <= bpow radix2 40)%R -> pts <> [] ->
  Forall (fun p => length p = DIM /\ Forall (fun x => ieee_finite (f_prec f) (f_emax f) x = true /\ (Rabs (SF2R radix2 x) <= bpow radix2 60)%R) p) pts ->
  f_buildGrid f g = Some true -> Forall (Forall2 (OffFaces f DIM) g) pts ->
  (forall i c v, le (cellvol c) v -> hit i c = true -> pv i v = true) ->
  (forall i j v, le (ptvol j) v -> near i j = true -> pv i v = true) ->
  2 <= minpts -> minpts <= big ->
  forall permute order scratch, let n := length pts in permute ≡ₚ seq 0 n -> order ≡ₚ seq 0 (S n) -> length scratch = S n ->
  densebox le cellvol ptvol near hit pv n minpts big star swap (map cell permute) permute order scratch
    (if star then ValidDBSCANStar n minpts near else ValidDBSCAN n minpts near).
Proof.
  intros f Hf V le cellvol ptvol pv DIM eps pts minpts big star swap g near hit cell HD Fe He Hne HP HG HO PSc PSp Hm Hb permute order scratch n Hpe Ho Hs.
  assert (OkFmt f) as HK by (destruct Hf as [-> | ->]; [apply ok32|apply ok64]). assert (20 <= f_prec f)%Z as Hbig by (destruct Hf as [-> | ->]; simpl; lia). assert (128 <= f_emax f)%Z as Hwide by (destruct Hf as [-> | ->]; simpl; lia).
  assert (bpow radix2 (-40) <= IeeeProof.V (f_emax f) eps <= bpow radix2 40)%R as He' by (by rewrite V_fin).
  assert (Forall (fun p => length p = DIM /\ Forall (fun x => ieee_finite (f_prec f) (f_emax f) x = true /\ (Rabs (IeeeProof.V (f_emax f) x) <= bpow radix2 60)%R) p) pts) as HP'.
  { eapply Forall_impl; [exact HP|]. intros p [H1 H2]. split; [done|]. eapply Forall_impl; [exact H2|]. intros x [H3 H4]. split; [done|]. by rewrite V_fin. }
  apply C24_densebox_valid; auto.
  - intros a b. by apply (near_sym f DIM).
  - intros a. by apply (near_refl f Hbig Hwide DIM).
  - by apply (contract f Hbig Hwide DIM).
Qed.
Print Assumptions C98_densebox_partial.

(** ** An input that meets the hypotheses: four points in the plane, eps = 1.5; the first two share a cell, the third is near none *)
Definition safe_eps : spec_float := f32 3 (-1).
Definition safe_pts : list (list spec_float) := [[f32 0 0; f32 0 0]; [f32 1 (-1); f32 1 (-2)]; [f32 3 (-2); f32 5 (-1)]; [f32 19 (-2); f32 1 (-1)]].
Local Ltac sfr := simpl; unfold F2R; simpl; repeat match goal with |- context [IZR (Z.pow_pos ?a ?b)] => let z := eval vm_compute in (Z.pow_pos a b) in change (Z.pow_pos a b) with z end;
  repeat match goal with |- context [IZR (- ?p)%Z] => let z := eval vm_compute in (- p)%Z in change (- p)%Z with z end.
Local Ltac at_coord := eexists _, _; split; [vm_compute; reflexivity|split; [vm_compute; reflexivity|split; [lia|]]].
Example C98_safe_example :
  let g := f_grid_of binary32 2 safe_eps safe_pts in
  ieee_finite 24 128 safe_eps = true /\ (bpow radix2 (-40) <= SF2R radix2 safe_eps <= bpow radix2 40)%R /\
  Forall (fun p => length p = 2 /\ Forall (fun x => ieee_finite 24 128 x = true /\ (Rabs (SF2R radix2 x) <= bpow radix2 60)%R) p) safe_pts /\
  f_buildGrid binary32 g = Some true /\ Forall (Forall2 (OffFaces binary32 2) g) safe_pts /\
  map (f_cell binary32 g safe_pts) [0; 1; 2; 3] = [0; 0; 10; 4] /\ f_near binary32 safe_eps safe_pts 0 1 = true /\ f_near binary32 safe_eps safe_pts 1 2 = false.
Proof.
  cbv zeta. split; [reflexivity|]. split; [sfr; lra|]. split.
  { repeat constructor; sfr; try (rewrite Rabs_right by lra); lra. }
  split; [vm_compute; reflexivity|]. split; [|split; [vm_compute; reflexivity|split; vm_compute; reflexivity]].
  set (g := f_grid_of _ _ _ _). vm_compute in g. subst g. 
  unfold safe_pts. do 4 (apply Forall_cons; split; [do 2 (constructor; [at_coord; sfr; split; [first [left; split; [reflexivity|lra]|right; lra]|lra]|]); constructor|]). constructor.
Qed.
