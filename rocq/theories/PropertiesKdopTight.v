(** C75: k-DOP tests reject what one of their directions separates. *)
From Coq Require Import QArith Lqa.
From Verif Require Import Base HeapSpec GeomOps BoxModel BoxSpec KdopModel PropertiesBox PropertiesBoxTight PropertiesKdop.
Local Open Scope nat_scope.

(** The directions: k / 2 of them, none twice, no two opposite. *)
Theorem C75_directions : forall DIM kk dirs, kdop_directions DIM kk = Some dirs ->
  2 * length dirs = kk /\ NoDup dirs /\ forall d, d ∈ dirs -> length d = DIM /\ map Z.opp d ∉ dirs /\ Forall (fun z => -1 <= z <= 1)%Z d.
Proof.
  unfold kdop_directions. intros DIM kk dirs H. repeat match goal with H : match ?n with O => _ | S _ => _ end = Some _ |- _ => destruct n; try discriminate end;
    injection H as <-; (split; [reflexivity|]); (split; [apply (bool_decide_unpack _); vm_compute; exact I|]);
    apply Forall_forall; apply (bool_decide_unpack _); vm_compute; exact I.
Qed.
Print Assumptions C75_directions.

Section Slab.
Variables rnd sq : Q -> Q.
Hypothesis HR : Rounding rnd sq.
Notation O := (RndOps rnd sq).

Lemma extreme_in up b d : length d = length b -> BoxSpec.Proper Qltb b -> InBox Qltb (extreme up b d) b.
Proof.
  intros HL Hb. revert d HL. induction Hb as [|[lo hi] b H Hb IH]; intros [|z d] HL; try discriminate; [constructor|].
  unfold extreme. cbn [zip_with]. constructor; [|apply IH; by injection HL]. cbn [fst snd] in *. rewrite !Qltb_ge in *.
  destruct (eqb up (0 <? z)%Z); lra.
Qed.
Lemma corners_in b c : BoxSpec.Proper Qltb b -> c ∈ corners b -> InBox Qltb c b.
Proof.
  intros Hb Hc. destruct b as [|[x x'] [|[y y'] [|[z z'] [|? b]]]]; simpl in Hc; try (by apply elem_of_nil in Hc);
    repeat (apply Forall_cons in Hb as [?H Hb]); cbn [fst snd] in *; rewrite !Qltb_ge in *;
    repeat (apply elem_of_cons in Hc as [->|Hc]); try (by apply elem_of_nil in Hc); repeat constructor; cbn [fst snd]; rewrite Qltb_ge; lra.
Qed.
Definition slabs (dirs : list (list Z)) (b : list (Q * Q)) : list (Q * Q) :=
  map (fun d => (proj O (extreme false b d) d, proj O (extreme true b d) d)) dirs.
Lemma expand_in_slabs dirs k b : Forall (fun d => length d = length b) dirs -> BoxSpec.Proper Qltb b ->
  BoxIn Qltb k (slabs dirs b) -> BoxIn Qltb (kdop_expand_box O dirs k b) (slabs dirs b).
Proof.
  intros HF Hb Hk. unfold kdop_expand_box. cbn [o_ltb RndOps]. destruct (existsb _ b); [done|].
  assert (forall c, c ∈ corners b -> InBox Qltb c b) as Hc by (intros c; by apply corners_in).
  revert k Hk Hc. induction (corners b) as [|c l IH]; intros k Hk Hc; [done|]. simpl. apply IH; [|intros q Hq; apply Hc; by right].
  unfold kdop_expand_point. rewrite expand_point_box. apply (expand_box_least O); [|done|].
  - unfold point_box. rewrite !map_length. apply Forall2_length in Hk. unfold slabs in Hk. by rewrite map_length in Hk.
  - apply (point_box_in O). specialize (Hc c ltac:(left)). clear -HR HF Hc. unfold slabs. induction HF as [|d dirs Hd HF IH]; [constructor|].
    cbn [map]. constructor; [|done]. cbn [fst snd]. destruct (extreme_proj rnd sq HR b c d Hc Hd). split; by apply Qltb_ge.
Qed.
End Slab.

(** A reported intersection of a k-DOP and a box is not refuted by any single direction: along each one, some point of
    the box is not below the slab and some point is not above it.  The projections of the box are within the range
    [fmin, fmax] of the format. *)
Theorem C75_box_not_separated : forall rnd sq, Rounding rnd sq -> forall DIM kk dirs fmin fmax k b,
  kdop_directions DIM kk = Some dirs -> length k = length dirs -> length b = DIM -> BoxSpec.Proper Qltb b ->
  (forall p d, InBox Qltb p b -> d ∈ dirs -> (fmin <= proj (RndOps rnd sq) p d <= fmax)%Q) ->
  kdop_intersects_box (RndOps rnd sq) dirs fmin fmax k b = true ->
  forall i d lo hi, dirs !! i = Some d -> k !! i = Some (lo, hi) ->
    (exists p, InBox Qltb p b /\ (lo <= proj (RndOps rnd sq) p d)%Q) /\ (exists p, InBox Qltb p b /\ (proj (RndOps rnd sq) p d <= hi)%Q).
Proof.
  intros rnd sq HR DIM kk dirs fmin fmax k b Hd HLk HLb Hb Hrange Hi i d lo hi Hdi Hki.
  apply directions_dim in Hd as (_&HF&_). rewrite <- HLb in HF.
  assert (BoxIn Qltb (kdop_expand_box (RndOps rnd sq) dirs (empty_box (length dirs) fmin fmax) b) (slabs rnd sq dirs b)) as HS.
  { apply (expand_in_slabs rnd sq HR); [done|done|]. unfold empty_box, slabs. clear -HF Hb Hrange.
    assert (forall d, d ∈ dirs -> length d = length b) as HF' by (by apply Forall_forall). clear HF.
    induction dirs as [|e dirs IH]; [constructor|]. cbn [length replicate map]. constructor.
    - cbn [fst snd]. rewrite !Qltb_ge. split; apply (Hrange _ e); try apply extreme_in; try done; try (by left); apply HF'; by left.
    - apply IH; [|intros e' He'; apply HF'; by right]. intros p e' Hp He'. apply Hrange; [done|by right]. }
  unfold kdop_intersects_box, kdop_intersects_kdop, intersects_bb in Hi. rewrite forallb_forall in Hi.
  assert (slabs rnd sq dirs b !! i = Some (proj (RndOps rnd sq) (extreme false b d) d, proj (RndOps rnd sq) (extreme true b d) d)) as Hsl.
  { unfold slabs. change @map with @list_fmap. by rewrite list_lookup_fmap, Hdi. }
  destruct (Forall2_lookup_r _ _ _ i _ HS Hsl) as ([e1 e2]&He&H1&H2). cbn [fst snd] in H1, H2. rewrite !Qltb_ge in H1, H2.
  specialize (Hi ((lo, hi), (e1, e2))). cbn [o_ltb RndOps] in Hi. rewrite negb_true_iff, orb_false_iff, !Qltb_ge in Hi.
  destruct Hi as [H3 H4].
  { apply elem_of_list_In, (elem_of_list_lookup_2 _ i). apply lookup_zip_with_Some. by exists (lo, hi), (e1, e2). }
  assert (length d = length b) as Hdb by (by apply (Forall_lookup_1 _ _ _ _ HF Hdi)).
  split; [exists (extreme true b d)|exists (extreme false b d)]; (split; [by apply extreme_in|lra]).
Qed.
Print Assumptions C75_box_not_separated.

(** Two k-DOPs are reported to intersect exactly when their slabs overlap along every direction. *)
Theorem C75_kdops : forall T (O : Ops T), StrictWeak (o_ltb O) -> forall k l, length k = length l ->
  BoxSpec.Proper (o_ltb O) k -> BoxSpec.Proper (o_ltb O) l ->
  kdop_intersects_kdop O k l = true <-> exists v, InBox (o_ltb O) v k /\ InBox (o_ltb O) v l.
Proof. intros T O SW k l. apply (C37_overlap_exact T O SW). Qed.
Print Assumptions C75_kdops.

(** The octagon of C61_example and a box it meets: the hypotheses hold with the range [-100, 100]. *)
Example C75_example : exists dirs, kdop_directions 2 8 = Some dirs /\
  let k := [(-1, 1); (-1, 1); (-1, 1); (-1, 1)]%Q in let b := [(0, 1 # 2); (0, 1 # 2)]%Q in let O := RndOps (fun x => x) (fun x => x) in
  BoxSpec.Proper Qltb b /\ (forall p d, InBox Qltb p b -> d ∈ dirs -> (-100 <= proj O p d <= 100)%Q) /\
  kdop_intersects_box O dirs (-100)%Q 100%Q k b = true /\ kdop_intersects_box O dirs (-100)%Q 100%Q k [(1, 2); (1, 2)]%Q = false.
Proof.
  eexists. split; [reflexivity|]. cbv zeta. split; [repeat constructor|]. split; [|split; vm_compute; reflexivity].
  intros p d Hp Hd. inversion Hp as [|x ? p1 ? [A1 A2] Hp1]; subst. inversion Hp1 as [|y ? p2 ? [A3 A4] Hp2]; subst. inversion Hp2; subst.
  cbn [fst snd] in *. rewrite !Qltb_ge in *.
  repeat (apply elem_of_cons in Hd as [->|Hd]); try (by apply elem_of_nil in Hd); unfold proj, entry; simpl; lra.
Qed.
