(** C36, C37: boxes. *)
From Coq Require Import QArith Qround Lqa.
From Verif Require Import Base HeapSpec TreeSpec TraversalSpec GeomOps BoxModel BoxSpec.
Local Open Scope nat_scope.

(** ** C36 *)
Section C36.
Context {T : Type} (O : Ops T).
Notation ltb := (o_ltb O).
Hypothesis SW : StrictWeak ltb.

Lemma le_trans a b c : ltb b a = false -> ltb c b = false -> ltb c a = false.
Proof. intros H1 H2. by apply (sw_incomp _ SW c b a). Qed.
Lemma le_refl a : ltb a a = false. Proof. apply SW. Qed.
Lemma lt_le a b : ltb a b = true -> ltb b a = false.
Proof. intros H. destruct (ltb b a) eqn:E; [|done]. pose proof (sw_trans _ SW _ _ _ H E) as Hc. by rewrite le_refl in Hc. Qed.
Lemma kmin_l a b : ltb a (kmin O a b) = false.
Proof. unfold kmin. destruct (ltb b a) eqn:E; [by apply lt_le|apply le_refl]. Qed.
Lemma kmin_r a b : ltb b (kmin O a b) = false.
Proof. unfold kmin. destruct (ltb b a) eqn:E; [apply le_refl|done]. Qed.
Lemma kmin_glb a b c : ltb a c = false -> ltb b c = false -> ltb (kmin O a b) c = false.
Proof. unfold kmin. by destruct (ltb b a). Qed.
Lemma kmax_l a b : ltb (kmax O a b) a = false.
Proof. unfold kmax. destruct (ltb a b) eqn:E; [by apply lt_le|apply le_refl]. Qed.
Lemma kmax_r a b : ltb (kmax O a b) b = false.
Proof. unfold kmax. destruct (ltb a b) eqn:E; [apply le_refl|done]. Qed.
Lemma kmax_lub a b c : ltb c a = false -> ltb c b = false -> ltb c (kmax O a b) = false.
Proof. unfold kmax. by destruct (ltb a b). Qed.

Lemma BoxIn_refl b : BoxIn ltb b b.
Proof. induction b; constructor; [|done]. split; apply le_refl. Qed.
Lemma BoxIn_trans a b c : BoxIn ltb a b -> BoxIn ltb b c -> BoxIn ltb a c.
Proof.
  intros H. revert c. induction H as [|i j a b [H1 H2] HF IH]; intros c Hc; [inversion Hc; constructor|].
  apply Forall2_cons_inv_l in Hc as ([lo hi]&c'&[H3 H4]&Hc&->). constructor; [|by apply IH]. simpl in *.
  split; [by apply (le_trans _ j.1)|by apply (le_trans _ j.2)].
Qed.
Lemma InBox_trans p b c : InBox ltb p b -> BoxIn ltb b c -> InBox ltb p c.
Proof.
  intros H. revert c. induction H as [|x j p b [H1 H2] HF IH]; intros c Hc; [inversion Hc; constructor|].
  apply Forall2_cons_inv_l in Hc as ([lo hi]&c'&[H3 H4]&Hc&->). constructor; [|by apply IH]. simpl in *.
  split; [by apply (le_trans _ j.1)|by apply (le_trans _ j.2)].
Qed.
Lemma expand_box_length b c : length b = length c -> length (expand_box O b c) = length b.
Proof. intros H. unfold expand_box. rewrite zip_with_length. lia. Qed.
Lemma expand_box_in b : forall c, length b = length c -> BoxIn ltb b (expand_box O b c) /\ BoxIn ltb c (expand_box O b c).
Proof.
  induction b as [|[lo hi] b IH]; intros [|[lo' hi'] c] H; try discriminate; [split; constructor|]. simpl in H.
  destruct (IH c ltac:(lia)) as [H1 H2]. simpl. split; (constructor; [simpl|done]).
  - split; [apply kmin_l|apply kmax_l].
  - split; [apply kmin_r|apply kmax_r].
Qed.
Lemma expand_box_least b : forall c u, length b = length c -> BoxIn ltb b u -> BoxIn ltb c u -> BoxIn ltb (expand_box O b c) u.
Proof.
  induction b as [|[lo hi] b IH]; intros [|[lo' hi'] c] u H Hb Hc; try discriminate; [done|]. simpl in H.
  apply Forall2_cons_inv_l in Hb as ([x y]&u'&[H1 H2]&Hb&->). apply Forall2_cons_inv_l in Hc as ([x' y']&u''&[H3 H4]&Hc&[= <- <- <-]).
  simpl in *. constructor; [|apply IH; [lia|done|done]]. split; [by apply kmin_glb|by apply kmax_lub].
Qed.
Lemma expand_point_box b : forall p, expand_point O b p = expand_box O b (point_box p).
Proof. induction b as [|[lo hi] b IH]; intros [|x p]; try done. simpl. f_equal. apply IH. Qed.
Lemma point_box_in p b : BoxIn ltb (point_box p) b <-> InBox ltb p b.
Proof. unfold BoxIn, InBox, point_box. revert b. induction p as [|x p IH]; intros [|[lo hi] b]; simpl; split; intros H; inversion H; subst; constructor; try done; by apply IH. Qed.

(** The hull of a list of boxes: induction used by the theorems. *)
Lemma LeastBox_app bs cs b c : length b = length c -> LeastBox ltb bs b -> LeastBox ltb cs c -> LeastBox ltb (bs ++ cs) (expand_box O b c).
Proof.
  intros HL [H1 H2] [H3 H4]. destruct (expand_box_in b c HL) as [H5 H6]. split.
  - intros d Hd. apply elem_of_app in Hd as [Hd|Hd]; [by apply (BoxIn_trans _ b); [apply H1|]|by apply (BoxIn_trans _ c); [apply H3|]].
  - intros u HLu Hu. rewrite expand_box_length in HLu by done. apply expand_box_least; [done|apply H2|apply H4]; try lia; intros d Hd; apply Hu, elem_of_app; tauto.
Qed.
Lemma LeastBox_one b : LeastBox ltb [b] b.
Proof. split; [intros c Hc; apply elem_of_list_singleton in Hc as ->; apply BoxIn_refl|]. intros u _ Hu. by apply Hu, elem_of_list_singleton. Qed.
End C36.

(** Expansion by a box, a point, or several points (triangle, segment, tetrahedron) yields the least box around the old
    box and the new geometry.  For coordinates under any strict weak order (floats without NaN). *)
Theorem C36_expand_least {T} (O : Ops T) : StrictWeak (o_ltb O) -> forall b : list (T * T),
  (forall c, length c = length b -> LeastBox (o_ltb O) [b; c] (expand_box O b c)) /\
  (forall p, length p = length b -> LeastBox (o_ltb O) [b; point_box p] (expand_point O b p)) /\
  (forall ps, (forall p, p ∈ ps -> length p = length b) -> LeastBox (o_ltb O) (b :: map point_box ps) (expand_points O b ps)).
Proof.
  intros SW b. assert (forall c, length c = length b -> LeastBox (o_ltb O) [b; c] (expand_box O b c)) as H1.
  { intros c Hc. by apply (LeastBox_app O SW [b] [c] b c); [|apply LeastBox_one|apply LeastBox_one]. }
  split; [done|]. split.
  - intros p Hp. rewrite expand_point_box. apply H1. unfold point_box. by rewrite map_length.
  - intros ps. clear H1. assert (forall bs b, LeastBox (o_ltb O) bs b -> (forall p, p ∈ ps -> length p = length b) -> LeastBox (o_ltb O) (bs ++ map point_box ps) (expand_points O b ps)) as H.
    { induction ps as [|p ps IH]; intros bs b' Hb HL; simpl; [by rewrite app_nil_r|].
      assert (length (point_box p) = length b') as HLp by (unfold point_box; rewrite map_length; apply HL; left).
      rewrite expand_point_box. change (point_box p :: map point_box ps) with ([point_box p] ++ map point_box ps). rewrite app_assoc. apply IH.
      - apply LeastBox_app; [done|done|done|by apply LeastBox_one].
      - intros p' Hp'. rewrite expand_box_length by done. apply HL. by right. }
    intros HL. apply (H [b]); [by apply LeastBox_one|done].
Qed.

(** A parallel reduction over boxes: along whatever tree and in whatever order values are joined, with as many copies of
    the initial value as there are threads, the result is the least box around the values, provided the initial value
    is the empty box and each value is joined at least once.  Joining a value twice does no harm. *)
Theorem C36_reduction {T} (O : Ops T) : StrictWeak (o_ltb O) -> forall DIM fmin fmax vals t,
  (forall b, b ∈ vals -> length b = DIM) ->
  (* coordinates are finite *)
  (forall b c, b ∈ vals -> c ∈ b -> o_ltb O fmax c.1 = false /\ o_ltb O c.2 fmin = false) ->
  (forall i, i < length vals <-> i ∈ red_values t) -> vals <> [] ->
  exists b, reduced O (empty_box DIM fmin fmax) vals t = Some b /\ LeastBox (o_ltb O) vals b.
Proof.
  intros SW DIM fmin fmax vals t HL Hfin Hall Hne.
  assert (length (empty_box DIM fmin fmax) = DIM) as HLe by apply replicate_length.
  assert (forall t, (forall i, i ∈ red_values t -> i < length vals) -> exists b, reduced O (empty_box DIM fmin fmax) vals t = Some b /\ length b = DIM /\
    (forall i c, i ∈ red_values t -> vals !! i = Some c -> BoxIn (o_ltb O) c b) /\
    forall u, length u = DIM -> BoxIn (o_ltb O) (empty_box DIM fmin fmax) u -> (forall i c, i ∈ red_values t -> vals !! i = Some c -> BoxIn (o_ltb O) c u) -> BoxIn (o_ltb O) b u) as H.
  { clear t Hall. induction t as [|i|d IHd s IHs]; intros Hi; simpl.
    - eexists. split; [done|]. split; [done|]. split; [intros i c Hi'; by apply elem_of_nil in Hi'|done].
    - destruct (lookup_lt_is_Some_2 vals i) as [c Hc]; [apply Hi; simpl; by left|]. rewrite Hc. exists c. split; [done|]. split; [apply HL; by eapply elem_of_list_lookup_2|].
      split; [intros j c' Hj Hc'; apply elem_of_list_singleton in Hj; subst j; assert (c' = c) as -> by congruence; by apply BoxIn_refl|].
      intros u _ _ Hu. apply (Hu i); [by left|done].
    - destruct (IHd ltac:(intros j Hj; apply Hi; simpl; apply elem_of_app; by left)) as (bd&->&Hld&Hd1&Hd2).
      destruct (IHs ltac:(intros j Hj; apply Hi; simpl; apply elem_of_app; by right)) as (bs&->&Hls&Hs1&Hs2). simpl.
      eexists. split; [done|]. split; [rewrite expand_box_length; congruence|].
      destruct (expand_box_in O SW bd bs ltac:(congruence)) as [H5 H6]. split.
      + intros j c Hj Hc. apply elem_of_app in Hj as [Hj|Hj]; [apply (BoxIn_trans O SW _ bd); [by apply (Hd1 j)|done]|apply (BoxIn_trans O SW _ bs); [by apply (Hs1 j)|done]].
      + intros u HLu Hu0 Hu. apply expand_box_least; [congruence|apply Hd2|apply Hs2]; try done; intros j c Hj; apply Hu, elem_of_app; tauto. }
  destruct (H t ltac:(intros i Hi; by apply Hall)) as (b&E&HLb&H1&H2). exists b. split; [done|]. split.
  - intros c Hc. apply elem_of_list_lookup in Hc as [i Hc]. apply (H1 i); [|done]. apply Hall. by eapply lookup_lt_Some.
  - intros u HLu Hu. apply H2; [congruence| |intros i c _ Hc; apply Hu; by eapply elem_of_list_lookup_2].
    destruct vals as [|v vals]; [done|]. assert (BoxIn (o_ltb O) v u) as Hv by (apply Hu; left).
    apply (BoxIn_trans O SW _ v); [|done]. pose proof (HL v ltac:(left)) as HLv. pose proof (Hfin v) as Hf.
    specialize (fun c => Hf c ltac:(left)). clear -HLv Hf. subst DIM. unfold empty_box. induction v as [|c v IH]; [constructor|]. simpl. constructor.
    + simpl. apply Hf. left.
    + apply IH. intros c' Hc'. apply Hf. by right.
Qed.

(** So two reductions of the same values agree, up to which of two equivalent numbers (0 and -0) a corner is. *)
Theorem C36_order_independent {T} (O : Ops T) : StrictWeak (o_ltb O) -> forall vals b b', length b = length b' ->
  LeastBox (o_ltb O) vals b -> LeastBox (o_ltb O) vals b' -> BoxIn (o_ltb O) b b' /\ BoxIn (o_ltb O) b' b.
Proof. intros SW vals b b' HL [H1 H2] [H3 H4]. split; [apply H2|apply H4]; auto. Qed.

(** The box expansion of the code is the join that the tree theorems (C01, C03, C05) ask for. *)
Definition valid_box {T} (O : Ops T) (DIM : nat) (fmin fmax : T) (b : list (T * T)) : Prop :=
  length b = DIM /\ Forall (fun c => o_ltb O fmax c.1 = false /\ o_ltb O c.2 fmin = false) b.
Lemma empty_valid {T} (O : Ops T) (SW : StrictWeak (o_ltb O)) DIM fmin fmax : valid_box O DIM fmin fmax (empty_box DIM fmin fmax).
Proof. split; [apply replicate_length|]. apply Forall_replicate. split; apply SW. Qed.
Lemma expand_valid {T} (O : Ops T) (SW : StrictWeak (o_ltb O)) DIM fmin fmax b c : valid_box O DIM fmin fmax b -> valid_box O DIM fmin fmax c -> valid_box O DIM fmin fmax (expand_box O b c).
Proof.
  intros [Hb1 Hb2] [Hc1 Hc2]. split; [rewrite expand_box_length; congruence|]. clear Hb1 Hc1. revert c Hc2. induction Hb2 as [|[lo hi] b [H1 H2] Hb IH]; intros c Hc; [constructor|].
  destruct Hc as [|[lo' hi'] c [H3 H4] Hc]; [constructor|]. simpl in *. constructor; [|by apply IH]. simpl. split.
  - apply (le_trans O SW _ lo); [by apply kmin_l|done].
  - apply (le_trans O SW fmin hi); [done|by apply kmax_l].
Qed.
Theorem C36_tree_join {T} (O : Ops T) (SW : StrictWeak (o_ltb O)) DIM fmin fmax :
  JoinSemi (V := {b | valid_box O DIM fmin fmax b})
    (fun b c => BoxIn (o_ltb O) (proj1_sig b) (proj1_sig c))
    (fun b c => exist _ (expand_box O (proj1_sig b) (proj1_sig c)) (expand_valid O SW DIM fmin fmax _ _ (proj2_sig b) (proj2_sig c)))
    (exist _ (empty_box DIM fmin fmax) (empty_valid O SW DIM fmin fmax)).
Proof.
  split; simpl.
  - intros [b Hb]. by apply BoxIn_refl.
  - intros [b Hb] [c Hc] [d Hd]. simpl. by apply BoxIn_trans.
  - intros [b [Hb ?]] [c [Hc ?]]. simpl. apply (expand_box_in O SW). congruence.
  - intros [b [Hb ?]] [c [Hc ?]]. simpl. apply (expand_box_in O SW). congruence.
  - intros [b [Hb ?]] [c [Hc ?]] [d Hd]. simpl. apply expand_box_least. congruence.
  - intros [b [Hb HF]]. simpl. clear -Hb HF. subst DIM. unfold empty_box. induction HF as [|c b H HF IH]; [constructor|]. simpl. by constructor.
Qed.

(** Exact arithmetic: expansion by a sphere gives the least box around the old one and the ball. *)
Lemma Qltb_SW : StrictWeak (o_ltb QOps).
Proof.
  split; simpl.
  - intros x. apply Qltb_ge. lra.
  - intros x y z. rewrite !Qltb_lt. lra.
  - intros x y z. rewrite !Qltb_ge. lra.
Qed.
Definition dist2 (p c : list Q) : Q := foldr Qplus 0%Q (zip_with (fun x y => (x - y) * (x - y))%Q p c).
Lemma Qsq_nonneg d : (0 <= d * d)%Q.
Proof. nra. Qed.
Lemma dist2_nonneg p : forall c, (0 <= dist2 p c)%Q.
Proof. unfold dist2. induction p as [|x p IH]; intros [|y c]; simpl; try lra. specialize (IH c). pose proof (Qsq_nonneg (x - y)). lra. Qed.
Theorem C36_sphere : forall (b : list (Q * Q)) c r, length c = length b -> (0 <= r)%Q ->
  let b' := expand_sphere QOps b c r in
  BoxIn Qltb b b' /\
  (forall p, length p = length c -> (dist2 p c <= r * r)%Q -> InBox Qltb p b') /\
  (forall u, BoxIn Qltb b u -> (forall p, length p = length c -> (dist2 p c <= r * r)%Q -> InBox Qltb p u) -> BoxIn Qltb b' u).
Proof.
  intros b c r HL Hr b'. unfold b'. clear b'.
  assert (expand_sphere QOps b c r = expand_box QOps b (map (fun x => (x - r, x + r)%Q) c)) as ->.
  { clear. revert c. induction b as [|[lo hi] b IH]; intros [|x c]; try done. simpl. f_equal. apply IH. }
  assert (length b = length (map (fun x => (x - r, x + r)%Q) c)) as HL' by (rewrite map_length; lia).
  destruct (expand_box_in QOps Qltb_SW b _ HL') as [H1 H2]. split; [done|]. split.
  - intros p HLp Hd. apply (InBox_trans QOps Qltb_SW _ (map (fun x => (x - r, x + r)%Q) c)); [|done]. clear -Hr HLp Hd. unfold InBox.
    unfold dist2 in Hd. revert c HLp Hd. induction p as [|x p IH]; intros [|y c] HLp Hd; try discriminate; [constructor|]. simpl in Hd, HLp.
    pose proof (dist2_nonneg p c) as Hn. unfold dist2 in Hn. simpl. pose proof (Qsq_nonneg (x - y)) as Hsq.
    assert ((x - y) * (x - y) <= r * r)%Q as Ha by lra. constructor.
    + simpl. rewrite !Qltb_ge. clear -Ha Hr. split; nra.
    + apply IH; [lia|]. lra.
  - intros u Hbu Hu. apply (expand_box_least QOps); [done|done|].
    (* the two poles in every dimension lie in u *)
    assert (forall i s, i < length c -> (s = r \/ s = - r)%Q -> InBox Qltb (imap (fun j x => if j =? i then x + s else x)%Q c) u) as Hp.
    { intros i s Hi Hs. apply Hu; [by rewrite imap_length|]. assert (s * s == r * r)%Q as <- by (destruct Hs as [-> | ->]; ring).
      clear -Hi. unfold dist2. revert i Hi. induction c as [|y c IH]; intros i Hi; [simpl in Hi; lia|]. simpl. destruct i as [|i]; simpl.
      - enough (foldr Qplus 0 (zip_with (λ x y, (x - y) * (x - y)) (imap (fun _ x => x) c) c) == 0)%Q as E.
        { assert (imap ((λ (j : nat) (x : Q), if j =? 0 then x + s else x)%Q ∘ S) c = imap (fun _ x => x) c) as -> by (apply imap_ext; done). rewrite E. lra. }
        clear. induction c as [|y c IH]; simpl; [reflexivity|]. unfold compose in *. rewrite IH. ring.
      - simpl in Hi. specialize (IH i ltac:(lia)). unfold compose. simpl.
        assert (y - y == 0)%Q as E by ring. rewrite E. lra. }
    apply Forall2_same_length_lookup. split.
    { rewrite map_length. pose proof (Forall2_length _ _ _ Hbu). lia. }
    intros i [lo hi] [ul uh] Hlo Huu. change (map ?f c) with (f <$> c) in Hlo. apply list_lookup_fmap_Some in Hlo as (x&Hx&E). injection E as -> ->. simpl.
    pose proof (lookup_lt_Some _ _ _ Hx) as Hi.
    assert (forall s : Q, (s = r \/ s = - r)%Q -> (ul <= x + s)%Q /\ (x + s <= uh)%Q) as Hs.
    { intros s Hs. pose proof (Forall2_lookup_lr _ _ _ i (x + s)%Q (ul, uh) (Hp i s Hi Hs)) as H. simpl in H. rewrite !Qltb_ge in H. apply H; [|done].
      rewrite list_lookup_imap, Hx. simpl. by rewrite Nat.eqb_refl. }
    rewrite !Qltb_ge. pose proof (Hs r ltac:(by left)). pose proof (Hs (- r)%Q ltac:(by right)). split; lra.
Qed.

Example C36_example : expand_points QOps (empty_box 2 (-100) 100)%Q [[1; 5]; [3; 2]]%Q = [(1, 3); (2, 5)]%Q /\
  reduced QOps (empty_box 1 (-100) 100)%Q [[(1, 2)]; [(5, 6)]; [(0, 1)]]%Q (Red_join (Red_join Red_init (Red_value 2)) (Red_join (Red_value 0) (Red_value 1))) = Some [(0, 6)]%Q /\
  expand_sphere QOps [(0, 1)]%Q [3]%Q 1%Q = [(0, 4)]%Q.
Proof. vm_compute. done. Qed.

(** ** C37 *)
Section C37.
Variables rnd sq : Q -> Q.
(** Rounding is monotone and keeps zero; the computed square root is monotone.  True of every IEEE rounding mode, with
    overflow rounding to the largest value. *)
Hypothesis rnd_mono : forall x y, (x <= y)%Q -> (rnd x <= rnd y)%Q.
Hypothesis rnd_zero : (rnd 0 == 0)%Q.
Notation O := (RndOps rnd sq).

Lemma rnd_nonneg x : (0 <= x)%Q -> (0 <= rnd x)%Q.
Proof. intros H. apply rnd_mono in H. lra. Qed.
Lemma rnd_nonpos x : (x <= 0)%Q -> (rnd x <= 0)%Q.
Proof. intros H. apply rnd_mono in H. lra. Qed.
Definition Closer (d e : Q) : Prop := (0 <= d /\ d <= e \/ e <= d /\ d <= 0)%Q.
Lemma Closer_sq d e : Closer d e -> (d * d <= e * e)%Q.
Proof. unfold Closer. intros [[? ?]|[? ?]]; nra. Qed.
Lemma Closer_rnd d e : Closer d e -> Closer (rnd d) (rnd e).
Proof. intros [[H1 H2]|[H1 H2]]; [left|right]; (split; [|by apply rnd_mono]) || (split; [by apply rnd_mono|]); [by apply rnd_nonneg|by apply rnd_nonpos]. Qed.
Lemma foldl_mono ds es : Forall2 Closer ds es -> forall s t, (0 <= s)%Q -> (s <= t)%Q ->
  (0 <= foldl (fun s d => rnd (s + rnd (d * d))) s ds)%Q /\
  (foldl (fun s d => rnd (s + rnd (d * d))) s ds <= foldl (fun s d => rnd (s + rnd (d * d))) t es)%Q.
Proof.
  induction 1 as [|d e ds es H HF IH]; intros s t Hs Hst; simpl; [done|]. apply Closer_sq in H. apply rnd_mono in H.
  pose proof (rnd_nonneg _ (Qsq_nonneg d)). apply IH; [apply rnd_nonneg; lra|apply rnd_mono; lra].
Qed.
Lemma closest_coord x lo hi v : (lo <= v)%Q -> (v <= hi)%Q -> Closer ((if Qltb x lo then lo else if Qltb hi x then hi else x) - x) (v - x).
Proof.
  intros H1 H2. unfold Closer. destruct (Qltb x lo) eqn:E1; [apply Qltb_lt in E1; left; lra|]. apply Qltb_ge in E1.
  destruct (Qltb hi x) eqn:E2; [apply Qltb_lt in E2; right; lra|]. destruct (Qlt_le_dec v x); [right|left]; lra.
Qed.
Lemma closest_closer p : forall b v, length p = length v -> InBox Qltb v b ->
  Forall2 Closer (zip_with (fun x y => rnd (y - x)) p (closest_box O p b)) (zip_with (fun x y => rnd (y - x)) p v).
Proof.
  induction p as [|x p IH]; intros b [|y v] HL Hv; try discriminate; inversion Hv as [|y' [lo hi] v' b' [H1 H2] HF]; subst; simpl in *; [constructor|].
  rewrite !Qltb_ge in H1, H2. constructor; [by apply Closer_rnd, closest_coord|]. apply IH; [lia|done].
Qed.
Lemma closest_in p : forall b, length p = length b -> Proper Qltb b -> InBox Qltb (closest_box O p b) b.
Proof.
  induction p as [|x p IH]; intros [|[lo hi] b] HL Hb; try discriminate; [constructor|]. inversion Hb as [|c b' H1 H2]; subst. simpl in *.
  constructor; [|apply IH; [lia|done]]. simpl. rewrite !Qltb_ge in *.
  destruct (Qltb x lo) eqn:E1; [apply Qltb_lt in E1; split; lra|]. apply Qltb_ge in E1.
  destruct (Qltb hi x) eqn:E2; [apply Qltb_lt in E2|apply Qltb_ge in E2]; split; lra.
Qed.
Lemma closest_length p b : length p = length b -> length (closest_box O p b) = length p.
Proof. intros H. unfold closest_box. rewrite zip_with_length. lia. Qed.
Lemma Proper_length (b : list (Q * Q)) (p : list Q) : InBox Qltb p b -> length p = length b.
Proof. apply Forall2_length. Qed.

(** Gaps between boxes. *)
Definition gapv (g : option Q) : Q := from_option id 0%Q g.
Definition gap_term (s : Q) (g : option Q) : Q := match g with Some d => rnd (s + rnd (d * d)) | None => s end.
Lemma gap_closer a b v : (a.1 <= a.2)%Q -> (v.1 <= v.2)%Q -> (b.1 <= v.1)%Q -> (v.2 <= b.2)%Q ->
  match gap O a b with
  | None => True
  | Some d => (0 <= d)%Q /\ exists e, gap O a v = Some e /\ (d <= e)%Q
  end.
Proof.
  destruct a as [a1 a2], b as [b1 b2], v as [v1 v2]. simpl. intros Ha Hv H1 H2. unfold gap. simpl.
  destruct (Qltb b2 a1) eqn:E1; simpl.
  { apply Qltb_lt in E1. split; [apply rnd_nonneg; lra|]. assert (Qltb v2 a1 = true) as -> by (apply Qltb_lt; lra).
    eexists. split; [done|]. apply rnd_mono. lra. }
  destruct (Qltb a2 b1) eqn:E2; simpl; [|done]. apply Qltb_lt in E2. apply Qltb_ge in E1. split; [apply rnd_nonneg; lra|].
  assert (Qltb v2 a1 = false) as -> by (apply Qltb_ge; lra). assert (Qltb a2 v1 = true) as -> by (apply Qltb_lt; lra).
  eexists. split; [done|]. apply rnd_mono. lra.
Qed.
End C37.

(** What rounding must satisfy. *)
Record Rounding (rnd sq : Q -> Q) : Prop := {
  rd_mono : forall x y, (x <= y)%Q -> (rnd x <= rnd y)%Q;
  rd_zero : (rnd 0 == 0)%Q;
  (** results of the operations are representable *)
  rd_idem : forall x, (rnd (rnd x) == rnd x)%Q;
  rd_sqrt : forall x y, (0 <= x)%Q -> (x <= y)%Q -> (sq x <= sq y)%Q
}.

(** The computed distance from a point to a box is at most the computed distance to any point, or nonempty box,
    inside it. *)
Theorem C37_point_box : forall rnd sq, Rounding rnd sq -> forall p b,
  (forall v, length p = length v -> InBox Qltb v b -> (distance_pb (RndOps rnd sq) p b <= distance_pp (RndOps rnd sq) p v)%Q) /\
  (forall c, length p = length c -> Proper Qltb c -> BoxIn Qltb c b -> (distance_pb (RndOps rnd sq) p b <= distance_pb (RndOps rnd sq) p c)%Q).
Proof.
  intros rnd sq [Hm Hz _ Hs] p b. assert (forall v, length p = length v -> InBox Qltb v b -> (distance_pb (RndOps rnd sq) p b <= distance_pp (RndOps rnd sq) p v)%Q) as H.
  { intros v HL Hv. unfold distance_pb, distance_pp, sum_squares. simpl.
    destruct (foldl_mono rnd Hm Hz _ _ (closest_closer rnd sq Hm Hz p b v HL Hv) 0%Q 0%Q ltac:(lra) ltac:(lra)) as [H1 H2]. by apply Hs. }
  split; [done|]. intros c HL Hc Hcb. unfold distance_pb at 2. apply H.
  - symmetry. by apply closest_length.
  - apply (InBox_trans QOps Qltb_SW _ c); [by apply closest_in|done].
Qed.

(** The computed distance between nonempty boxes does not grow when one of them does. *)
Theorem C37_box_box : forall rnd sq, Rounding rnd sq -> forall a b c,
  Proper Qltb a -> Proper Qltb c -> length a = length c -> BoxIn Qltb c b ->
  (distance_bb (RndOps rnd sq) a b <= distance_bb (RndOps rnd sq) a c)%Q.
Proof.
  intros rnd sq [Hm Hz Hi Hs] a b c Ha Hc HL Hcb. unfold distance_bb. simpl.
  set (f := fun s g => match g with Some d => rnd (s + rnd (d * d))%Q | None => s end).
  enough (forall s t, (0 <= s)%Q -> (rnd s == s)%Q -> (s <= t)%Q -> (rnd t == t)%Q ->
    (0 <= foldl f s (zip_with (gap (RndOps rnd sq)) a b))%Q /\ (foldl f s (zip_with (gap (RndOps rnd sq)) a b) <= foldl f t (zip_with (gap (RndOps rnd sq)) a c))%Q) as H.
  { destruct (H 0%Q 0%Q); [lra|lra|lra|lra|]. by apply Hs. }
  revert b c Hc HL Hcb. induction Ha as [|x a Hx Ha IH]; intros b c Hc HL Hcb s t H0 Hs0 Hst Ht.
  { simpl. done. }
  destruct c as [|w c]; [discriminate|]. apply Forall2_cons_inv_l in Hcb as ([b1 b2]&b'&[H1 H2]&Hcb&->). inversion Hc as [|? ? Hw Hc']; subst. simpl in HL.
  rewrite !Qltb_ge in H1, H2, Hx, Hw. simpl in H1, H2. simpl.
  pose proof (gap_closer rnd sq Hm Hz x (b1, b2) w Hx Hw H1 H2) as Hg.
  assert (forall d u, (0 <= u)%Q -> (u <= rnd (u + rnd (d * d)) \/ ~ rnd u == u)%Q) as Hgrow.
  { intros d u Hu. destruct (Qeq_dec (rnd u) u) as [E|]; [left|by right]. rewrite <- E at 1. apply Hm. pose proof (rnd_nonneg rnd Hm Hz _ (Qsq_nonneg d)). lra. }
  assert (forall d u, (rnd (rnd (u + rnd (d * d))) == rnd (u + rnd (d * d)))%Q) as Hid by (intros; apply Hi).
  destruct (gap (RndOps rnd sq) x (b1, b2)) as [d|] eqn:Eg.
  - destruct Hg as [Hd (e&Ee&Hde)]. rewrite Ee. simpl. apply IH; [done|lia|done| |done| |done].
    + apply (rnd_nonneg rnd Hm Hz). pose proof (rnd_nonneg rnd Hm Hz _ (Qsq_nonneg d)). lra.
    + apply Hm. assert (rnd (d * d) <= rnd (e * e))%Q by (apply Hm; nra). lra.
  - simpl. destruct (gap (RndOps rnd sq) x w) as [e|] eqn:Ee; simpl; [|apply IH; (done || lia)].
    apply IH; [done|lia|done|done|done| |done]. destruct (Hgrow e t ltac:(lra)) as [?|?]; [lra|done].
Qed.

(** Spheres: the test against the box accepts whenever the test against something inside does, and the distance is
    monotone. *)
Theorem C37_sphere_box : forall rnd sq, Rounding rnd sq -> forall p r b,
  (forall v, length p = length v -> InBox Qltb v b -> intersects_sp (RndOps rnd sq) p r v = true -> intersects_sb (RndOps rnd sq) p r b = true) /\
  (forall c, length p = length c -> Proper Qltb c -> BoxIn Qltb c b ->
     (intersects_sb (RndOps rnd sq) p r c = true -> intersects_sb (RndOps rnd sq) p r b = true) /\
     (distance_sb (RndOps rnd sq) p r b <= distance_sb (RndOps rnd sq) p r c)%Q).
Proof.
  intros rnd sq HR p r b. destruct (C37_point_box rnd sq HR p b) as [H1 H2]. split; [|intros c HL Hc Hcb; split].
  - intros v HL Hv. unfold intersects_sp, intersects_sb. cbn [o_leb RndOps]. rewrite !Qle_bool_iff. pose proof (H1 v HL Hv). intros ?. lra.
  - unfold intersects_sb. cbn [o_leb RndOps]. rewrite !Qle_bool_iff. pose proof (H2 c HL Hc Hcb). intros ?. lra.
  - unfold distance_sb, kmax. cbn [o_ltb o_sub o_zero RndOps]. specialize (H2 c HL Hc Hcb). clear H1.
    generalize dependent (distance_pb (RndOps rnd sq) p b). generalize (distance_pb (RndOps rnd sq) p c). intros x y Hyx.
    assert (rnd (y - r) <= rnd (x - r))%Q as H3 by (apply HR; lra). destruct (Qltb (rnd (y - r)%Q) 0) eqn:E1; destruct (Qltb (rnd (x - r)%Q) 0) eqn:E2; rewrite ?Qltb_lt, ?Qltb_ge in *; lra.
Qed.

(** Point-in-box and box-box overlap tests are monotone too (order only). *)
Theorem C37_overlap : forall T (O : Ops T), StrictWeak (o_ltb O) -> forall a b c, BoxIn (o_ltb O) c b ->
  (intersects_bb O a c = true -> intersects_bb O a b = true) /\
  (forall v, InBox (o_ltb O) v b -> length a = length b -> InBox (o_ltb O) v a -> intersects_bb O a b = true) /\
  (forall p, length p = length b -> intersects_pb O p b = true <-> InBox (o_ltb O) p b).
Proof.
  intros T O SW a b c Hcb. split; [|split].
  - unfold intersects_bb. revert a. induction Hcb as [|[v1 v2] [b1 b2] c b [H1 H2] HF IH]; intros [|[a1 a2] a]; try done. simpl in *.
    rewrite !andb_true_iff, !negb_true_iff, !orb_false_iff. intros [[H3 H4] H]. split; [|by apply IH].
    split; [by apply (le_trans O SW a1 v2)|by apply (le_trans O SW _ v1)].
  - clear c Hcb. intros v Hv. revert a. unfold intersects_bb. induction Hv as [|x [b1 b2] v b [H1 H2] HF IH]; intros [|[a1 a2] a] HL Ha; try done.
    inversion Ha as [|? ? ? ? [H3 H4] Ha']; subst. simpl in *. rewrite andb_true_iff, negb_true_iff, orb_false_iff. split; [|apply IH; [lia|done]].
    split; [by apply (le_trans O SW a1 x)|by apply (le_trans O SW b1 x)].
  - clear c Hcb. intros p. unfold intersects_pb, InBox. revert b. induction p as [|x p IH]; intros [|[b1 b2] b] HL; try discriminate; simpl.
    { split; [intros _; constructor|done]. }
    simpl in HL. rewrite andb_true_iff, negb_true_iff, orb_false_iff, (IH b) by lia. split.
    + intros [[? ?] ?]. constructor; [|done]. done.
    + intros H. inversion H as [|? ? ? ? [? ?] ?]; subst. done.
Qed.

(** In the terms of the tree theorems C03 and C05: for points, [Within] and nearest queries prune safely. *)
Theorem C37_tree_queries : forall rnd sq, Rounding rnd sq -> forall (pts : nat -> list Q) p r, (forall i, length (pts i) = length p) ->
  PruneSafe (BoxIn Qltb) (fun i => point_box (pts i)) (fun i => intersects_sp (RndOps rnd sq) p r (pts i)) (intersects_sb (RndOps rnd sq) p r) /\
  DistSafe (BoxIn Qltb) (fun i => point_box (pts i)) Qltb (fun i => distance_pp (RndOps rnd sq) p (pts i)) (distance_pb (RndOps rnd sq) p).
Proof.
  intros rnd sq HR pts p r HL. split; intros i b Hb; apply (point_box_in (RndOps rnd sq)) in Hb.
  - by apply (C37_sphere_box rnd sq HR).
  - apply Qltb_ge. by apply (C37_point_box rnd sq HR).
Qed.

(** Rounding down to multiples of 1/4 with saturation is such a rounding; in it these distances are not the exact ones. *)
Definition floor4 (x : Q) : Q := inject_Z (Z.max (-400) (Z.min 400 (Qfloor (x * 4)))) / 4.
Lemma floor4_rounding : Rounding floor4 (fun x => x).
Proof.
  assert (forall x y, (x <= y)%Q -> (floor4 x <= floor4 y)%Q) as Hm.
  { intros x y H. unfold floor4. unfold Qdiv. apply Qmult_le_compat_r; [|done]. rewrite <- Zle_Qle.
    assert (Qfloor (x * 4) <= Qfloor (y * 4))%Z by (apply Qfloor_resp_le; lra). lia. }
  split; [done|done| |by intros].
  intros x. unfold floor4. set (z := Z.max (-400) (Z.min 400 (Qfloor (x * 4)))).
  assert (Qfloor (inject_Z z / 4 * 4) = z) as ->.
  { rewrite <- (Qfloor_Z z) at 2. apply Qfloor_comp. field. }
  assert (-400 <= z <= 400)%Z by lia. rewrite (Z.min_r 400 z), (Z.max_r (-400) z) by lia. reflexivity.
Qed.
Example C37_example :
  let p := [0; 3 # 10]%Q in let b := [(1, 2); (0, 1)]%Q in let v := [11 # 10; 9 # 10]%Q in
  InBox Qltb v b /\ (distance_pb (RndOps floor4 (fun x => x)) p b == 1)%Q /\ (distance_pp (RndOps floor4 (fun x => x)) p v == 5 # 4)%Q /\
  (distance_bb (RndOps floor4 (fun x => x)) [(0, 0); (3, 4)]%Q b == 5)%Q.
Proof. vm_compute. split; [|done]. repeat constructor. Qed.

(** ** C59: the bounding box of a sphere does not cover the points the sphere test accepts. *)
(** In binary32, with centre -1, radius 1 and the point 2^-33: the distance rounds to 1, so the sphere test accepts
    the point; but the bounding box is [-2, 0] and both its intersection test and its distance reject it.  So a tree of spheres
    misses, for the point query, a sphere that a brute force search (and a tree of a single sphere) reports. *)
Theorem C59_sphere_box_refuted : exists c r p : SpecFloat.spec_float, exists fmin fmax,
  let b := expand_sphere F32 (empty_box 1 fmin fmax) [c] r in
  intersects_sp F32 [c] r [p] = true /\ intersects_pb F32 [p] b = false /\
  o_ltb F32 (distance_ps F32 [p] [c] r) (distance_pb F32 [p] b) = true.
Proof.
  exists (f32 (-1) 0), (f32 1 0), (f32 1 (-33)), (f32 (-(2^24 - 1)) 104), (f32 (2^24 - 1) 104). vm_compute. done.
Qed.
Print Assumptions C36_expand_least.
Print Assumptions C36_reduction.
Print Assumptions C36_order_independent.
Print Assumptions C36_tree_join.
Print Assumptions C36_sphere.
Print Assumptions C37_point_box.
Print Assumptions C37_box_box.
Print Assumptions C37_sphere_box.
Print Assumptions C37_overlap.
Print Assumptions C37_tree_queries.
Print Assumptions C59_sphere_box_refuted.
