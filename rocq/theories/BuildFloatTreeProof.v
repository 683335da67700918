(** Proofs about the codes of finite points and boxes, and about centroids. *)
From Coq Require Import Reals SpecFloat.
From Flocq Require Import Core IEEE754.BinarySingleNaN.
From Verif Require Import Base GeomOps BoxModel BoxSpec MortonFloatModel MortonSpec BuildFloatModel IeeeSpec IeeeProof BuildFloatProof PropertiesMorton.
From Coq Require Import Lra.
Local Open Scope nat_scope.

Section Fmt.
Context (f : fmt) (Hf2 : f = binary32 \/ f = binary64).
#[local] Instance fmt_ok : OkFmt f.
Proof. destruct Hf2 as [-> | ->]; apply _. Qed.
Lemma fmt24 : (24 <= f_prec f)%Z.
Proof. by destruct Hf2 as [-> | ->]. Qed.
Notation finite x := (ieee_finite (f_prec f) (f_emax f) x = true).
Notation number x := (ieee_number (f_prec f) (f_emax f) x = true).
Definition FinExtents (scene : list (spec_float * spec_float)) : Prop := Forall (fun c => finite (SFsub (f_prec f) (f_emax f) c.2 c.1)) scene.
Definition Extents DIM (scene : list (spec_float * spec_float)) : Prop := length scene = DIM /\ forall d e, scene !! d = Some e -> Extent f e.1 e.2.
Notation Numbers c := (Forall (fun x => number x) c).

(** The cells of a point. *)
Lemma cells_some DIM scene c F : (forall x, number x -> cell64 f DIM x = Some (Z.to_N (F x)) /\ (0 <= F x < 2 ^ Z.of_nat (bits64 DIM))%Z) ->
  Extents DIM scene -> FinExtents scene -> Numbers c -> forall d a b x, scene !! d = Some (a, b) -> c !! d = Some x -> number (scale1 f a b x).
Proof.
  intros HF [HL HE] HS Hc d a b x H1 H2. apply scale_number; [apply _|by apply (HE d (a, b))|..].
  - unfold FinExtents in HS. rewrite Forall_lookup in HS. by apply (HS d (a, b)).
  - rewrite Forall_lookup in Hc. by apply (Hc d).
Qed.
Definition zcells (F : spec_float -> Z) scene (c : list spec_float) : list N := map (fun '((a, b), x) => Z.to_N (F (scale1 f a b x))) (zip scene c).
Lemma zcells_lookup F scene c d k : zcells F scene c !! d = Some k -> exists a b x, scene !! d = Some (a, b) /\ c !! d = Some x /\ k = Z.to_N (F (scale1 f a b x)).
Proof.
  unfold zcells. intros H. rewrite list_lookup_fmap in H. apply fmap_Some in H as ([[a b] x] & Hd & ->). apply lookup_zip_with_Some in Hd as (e & x0 & [= <- <-] & H1 & H2). by exists a, b, x.
Qed.
Lemma code_cells DIM scene c F : (forall x, number x -> cell64 f DIM x = Some (Z.to_N (F x)) /\ (0 <= F x < 2 ^ Z.of_nat (bits64 DIM))%Z) ->
  Extents DIM scene -> FinExtents scene -> length c = DIM -> Numbers c ->
  code64 f DIM scene c = Some (Z.of_N (morton64_int DIM (zcells F scene c))) /\ length (zcells F scene c) = DIM /\ Forall (fun x => (x < 2 ^ N.of_nat (bits64 DIM))%N) (zcells F scene c).
Proof.
  intros HF HE HS HLc Hc. pose proof (cells_some DIM scene c F HF HE HS Hc) as Hn. split; [|split].
  - unfold code64. replace (mapM (fun '((a, b), x) => cell64 f DIM (scale1 f a b x)) (zip scene c)) with (Some (zcells F scene c)); [done|]. symmetry. apply mapM_Some.
    apply Forall2_fmap_r. apply Forall_Forall2_diag. apply Forall_lookup. intros d [[a b] x] Hd. apply lookup_zip_with_Some in Hd as (e & x' & [= <- <-] & H1 & H2). cbn. apply HF. by eapply Hn.
  - unfold zcells. rewrite map_length, zip_with_length. destruct HE. lia.
  - apply Forall_lookup. intros d k Hk. apply zcells_lookup in Hk as (a & b & x & H1 & H2 & ->). destruct (HF (scale1 f a b x)) as [_ HB]; [by eapply Hn|].
    apply N2Z.inj_lt. rewrite Z2N.id by lia. rewrite N2Z.inj_pow, nat_N_Z. apply HB.
Qed.
Lemma code_some DIM scene c : 2 <= DIM <= 10 -> Extents DIM scene -> FinExtents scene -> length c = DIM -> Numbers c ->
  exists z, code64 f DIM scene c = Some z /\ (0 <= z < 2 ^ 63)%Z.
Proof.
  intros HD HE HS HLc Hc. destruct (cell64_ok f DIM fmt24 _ HD) as (F & HF & _). destruct (code_cells DIM scene c F HF HE HS HLc Hc) as (E & H1 & H2).
  eexists. split; [exact E|]. destruct (C17_morton64_interleaves DIM (zcells F scene c)) as [_ H]; [lia|done|done|]. split; [lia|]. apply N2Z.inj_lt in H. exact H.
Qed.
Lemma code_mono DIM scene c1 c2 z1 z2 : 2 <= DIM <= 10 -> Extents DIM scene -> FinExtents scene -> length c1 = DIM -> Numbers c1 -> length c2 = DIM -> Numbers c2 ->
  (forall d x y, c1 !! d = Some x -> c2 !! d = Some y -> SFleb x y = true) -> code64 f DIM scene c1 = Some z1 -> code64 f DIM scene c2 = Some z2 -> (z1 <= z2)%Z.
Proof.
  intros HD HE HS HL1 H1 HL2 H2 Hle. destruct (cell64_ok f DIM fmt24 _ HD) as (F & HF & HM).
  destruct (code_cells DIM scene c1 F HF HE HS HL1 H1) as (E1 & L1 & B1). destruct (code_cells DIM scene c2 F HF HE HS HL2 H2) as (E2 & L2 & B2).
  rewrite E1, E2. intros [= <-] [= <-]. apply N2Z.inj_le. apply C17_morton_monotone; [lia|done|done| |done|done].
  intros d x y Hx Hy. apply zcells_lookup in Hx as (a & b & x' & S1 & X1 & ->). apply zcells_lookup in Hy as (a' & b' & y' & S2 & Y1 & ->). rewrite S1 in S2. injection S2 as <- <-.
  pose proof (cells_some DIM scene c1 F HF HE HS H1 d a b x' S1 X1) as N1. pose proof (cells_some DIM scene c2 F HF HE HS H2 d a b y' S1 Y1) as N2.
  apply Z2N.inj_le; [apply HF, N1|apply HF, N2|]. apply HM; [done|done|]. pose proof (Hle d x' y' X1 Y1) as Hxy.
  rewrite Forall_lookup in H1. rewrite Forall_lookup in H2. specialize (H1 d x' X1). specialize (H2 d y' Y1). apply scale_mono; [apply _|by apply (proj2 HE d (a, b))|..].
  - unfold FinExtents in HS. rewrite Forall_lookup in HS. by apply (HS d (a, b)).
  - done.
  - done.
  - by apply (leb_V (f_prec f) (f_emax f)) in Hxy.
Qed.
Lemma codes_some DIM scene cs : 2 <= DIM <= 10 -> Extents DIM scene -> FinExtents scene -> Forall (fun c => length c = DIM /\ Numbers c) cs ->
  exists codes, codes64 f DIM scene cs = Some codes /\ length codes = length cs /\ Forall (fun z => (0 <= z < 2 ^ 63)%Z) codes.
Proof.
  intros HD HE HS Hc. unfold codes64. induction Hc as [|c cs [HL Hn] Hc (codes & IH & IL & IF)]; [by exists []|].
  destruct (code_some DIM scene c HD HE HS HL Hn) as (z & Ez & Hz). exists (z :: codes). cbn. rewrite Ez. cbn. rewrite IH. cbn. split; [done|]. split; [by rewrite IL|by constructor].
Qed.
(** The other direction for points: where an extent overflows, the point attaining the upper end has no code. *)
Lemma mapM_None_cell {A B} (g : A -> option B) l d x : l !! d = Some x -> g x = None -> mapM g l = None.
Proof. revert d. induction l as [|y l IH]; intros [|d]; cbn; [done|done|intros [= ->] ->; done|]. intros H E. destruct (g y); [|done]. cbn. by rewrite (IH d). Qed.
Lemma codes_none DIM scene pts d c q x : 2 <= DIM <= 10 -> Extents DIM scene -> scene !! d = Some c -> ieee_finite (f_prec f) (f_emax f) (SFsub (f_prec f) (f_emax f) c.2 c.1) = false ->
  q ∈ pts -> q !! d = Some x -> finite x -> Vf f x = Vf f c.2 -> codes64 f DIM scene pts = None.
Proof.
  intros HD [HL HE] Hd Hinf (i & Hi)%elem_of_list_lookup_1 Hq Hx HV. destruct c as [a b]. unfold codes64. apply (mapM_None_cell _ _ i q Hi). unfold code64.
  rewrite (mapM_None_cell _ _ d ((a, b), x)); [done|by rewrite lookup_zip_with, Hd; cbn; rewrite Hq|]. cbn in Hinf, HV. rewrite (scale_nan f a b x (HE d (a, b) Hd) Hinf Hx HV). apply (cell64_nan f DIM fmt24 _ HD).
Qed.

(** Centroids. *)
Lemma two_V : finite (f_int f 2) /\ Vf f (f_int f 2) = 2%R.
Proof. apply (of_int_V (f_prec f) (f_emax f)). change (Z.abs 2) with (2 ^ 1)%Z. apply Z.pow_lt_mono_r; [lia|..]; pose proof fmt24; lia. Qed.
Notation half_sum a b := (SFdiv (f_prec f) (f_emax f) (SFadd (f_prec f) (f_emax f) a b) (f_int f 2)).
Lemma half_number a b : finite a -> finite b -> number (half_sum a b).
Proof.
  intros Ha Hb. destruct two_V as [F2 V2]. destruct (add_finite (f_prec f) (f_emax f) a b Ha Hb) as [N _]. apply (div_number (f_prec f) (f_emax f)); [done|done|]. rewrite V2. lra.
Qed.
Local Open Scope R_scope.
Lemma format_double x : generic_format radix2 (SpecFloat.fexp (f_prec f) (f_emax f)) x -> generic_format radix2 (SpecFloat.fexp (f_prec f) (f_emax f)) (2 * x).
Proof.
  intros H. change (SpecFloat.fexp (f_prec f) (f_emax f)) with (FLT_exp (SpecFloat.emin (f_prec f) (f_emax f)) (f_prec f)) in *.
  apply FLT_format_generic in H; [|apply _]. destruct H as [[m e] -> Hm He]. apply generic_format_FLT. exists (Float radix2 m (e + 1)); [|done|cbn in *; lia].
  unfold F2R. cbn [Fnum Fexp]. rewrite bpow_plus. cbn [bpow radix_val radix2]. change (IZR (Z.pow_pos 2 1)) with 2. ring.
Qed.
Lemma rn_double x : finite x -> rn (f_prec f) (f_emax f) (2 * Vf f x) = 2 * Vf f x.
Proof. intros H. apply round_generic; [apply _|]. apply format_double. by apply (format_V (f_prec f) (f_emax f)). Qed.
Lemma rn_id x : finite x -> rn (f_prec f) (f_emax f) (Vf f x) = Vf f x.
Proof. intros H. apply round_generic; [apply _|]. by apply (format_V (f_prec f) (f_emax f)). Qed.
Lemma half_between a b : finite a -> finite b -> Vf f a <= Vf f b -> finite (SFadd (f_prec f) (f_emax f) a b) ->
  finite (half_sum a b) /\ Vf f a <= Vf f (half_sum a b) <= Vf f b.
Proof.
  intros Ha Hb Hab Hs. destruct two_V as [F2 V2]. destruct (add_finite (f_prec f) (f_emax f) a b Ha Hb) as [_ Es].
  set (s := SFadd (f_prec f) (f_emax f) a b) in *. pose proof (V_finite _ _ _ Hs) as Bs. pose proof (V_finite _ _ _ Ha) as Ba. pose proof (V_finite _ _ _ Hb) as Bb. pose proof (M_pos (f_prec f) (f_emax f)) as HM.
  assert (Vf f s = rn (f_prec f) (f_emax f) (Vf f a + Vf f b)) as Es'.
  { revert Bs. rewrite Es. unfold sat, Rmax, Rmin. repeat destruct Rle_dec; lra. }
  assert (2 * Vf f a <= Vf f s <= 2 * Vf f b) as [S1 S2].
  { rewrite Es'. split; [rewrite <- (rn_double a Ha)|rewrite <- (rn_double b Hb)]; apply (rnm (f_prec f) (f_emax f)); lra. }
  destruct (div_finite (f_prec f) (f_emax f) s (f_int f 2) Hs F2 ltac:(rewrite V2; lra)) as [Nd Ed]. rewrite V2 in Ed.
  assert (Vf f a <= rn (f_prec f) (f_emax f) (Vf f s / 2) <= Vf f b) as HR.
  { split; [rewrite <- (rn_id a Ha)|rewrite <- (rn_id b Hb)]; apply (rnm (f_prec f) (f_emax f)); lra. }
  rewrite (sat_id (f_emax f)) in Ed by lra. split; [apply (number_hi (f_prec f) (f_emax f)); [done|]; rewrite Ed; lra|]. rewrite Ed. lra.
Qed.
Lemma half_comm a b : finite a -> finite b -> Vf f (half_sum a b) = Vf f (half_sum b a) /\ (finite (SFadd (f_prec f) (f_emax f) a b) <-> finite (SFadd (f_prec f) (f_emax f) b a)).
Proof.
  intros Ha Hb. destruct (add_finite (f_prec f) (f_emax f) a b Ha Hb) as [N1 E1]. destruct (add_finite (f_prec f) (f_emax f) b a Hb Ha) as [N2 E2]. rewrite Rplus_comm, <- E2 in E1.
  destruct two_V as [F2 V2]. split.
  - apply Rle_antisym; apply (div_mono (f_prec f) (f_emax f)); try done; rewrite ?V2; lra.
  - rewrite !(number_hi (f_prec f) (f_emax f)) by done. by rewrite E1.
Qed.
End Fmt.
