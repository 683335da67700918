(** C61: bounding volumes that are discrete oriented polytopes. *)
From Coq Require Import QArith Lqa.
From Verif Require Import Base HeapSpec TreeSpec TraversalSpec GeomOps BoxModel BoxSpec KdopModel PropertiesBox.
Local Open Scope nat_scope.

Section C61.
Variables rnd sq : Q -> Q.
Hypothesis HR : Rounding rnd sq.
Notation O := (RndOps rnd sq).

(** The corner of a box furthest in direction [d] (or opposite to it). *)
Definition extreme (up : bool) (b : list (Q * Q)) (d : list Z) : list Q :=
  zip_with (fun c z => if eqb up (0 <? z)%Z then c.2 else c.1) b d.
Lemma foldl_add_mono ds es : Forall2 Qle ds es -> forall s t, (s <= t)%Q -> (foldl (o_add O) s ds <= foldl (o_add O) t es)%Q.
Proof. induction 1 as [|d e ds es H HF IH]; intros s t Hst; simpl; [done|]. apply IH. apply HR. lra. Qed.
Lemma extreme_proj b p d : InBox Qltb p b -> length d = length b ->
  (proj O (extreme false b d) d <= proj O p d)%Q /\ (proj O p d <= proj O (extreme true b d) d)%Q.
Proof.
  intros Hp HL.
  assert (Forall2 Qle (zip_with (fun x z => o_mul O x (entry O z)) (extreme false b d) d) (zip_with (fun x z => o_mul O x (entry O z)) p d) /\
    Forall2 Qle (zip_with (fun x z => o_mul O x (entry O z)) p d) (zip_with (fun x z => o_mul O x (entry O z)) (extreme true b d) d)) as [H1 H2].
  { revert d HL. induction Hp as [|x [lo hi] p b [H1 H2] Hp IH]; intros [|z d] HL; try discriminate; [split; constructor|].
    simpl in HL. destruct (IH d ltac:(lia)) as [H3 H4]. cbn [fst snd o_ltb RndOps] in H1, H2. rewrite !Qltb_ge in H1, H2. unfold extreme. cbn [zip_with fst snd].
    split; (constructor; [|done]); unfold entry; cbn [o_mul o_one o_opp o_zero RndOps]; destruct (0 <? z)%Z; cbn [eqb]; (destruct (z <? 0)%Z || idtac); apply HR; lra. }
  unfold proj. split.
  - destruct H1; [lra|]. by apply foldl_add_mono.
  - destruct H2; [lra|]. by apply foldl_add_mono.
Qed.
Lemma extreme_corner up b d : length d = length b -> (length b = 2 \/ length b = 3) -> extreme up b d ∈ corners b.
Proof.
  intros HL HD. destruct b as [|[x x'] [|[y y'] [|[z z'] [|? b]]]]; simpl in HD; try lia;
    destruct d as [|dx [|dy [|dz [|]]]]; try discriminate; unfold extreme; simpl; rewrite ?elem_of_cons, elem_of_nil;
    repeat match goal with |- context [eqb up ?b] => destruct (eqb up b) end; tauto.
Qed.
Lemma proper_not_inverted (b : list (Q * Q)) p : InBox Qltb p b -> existsb (fun c => Qltb c.2 c.1) b = false.
Proof.
  induction 1 as [|x [lo hi] p b [H1 H2] Hp IH]; [done|]. cbn [existsb fst snd] in *. rewrite IH, orb_false_r. rewrite !Qltb_ge in *. lra.
Qed.
Lemma box_in_kdop dirs k b p : Forall (fun d => length d = length b) dirs -> (length b = 2 \/ length b = 3) ->
  length k = length dirs -> InBox Qltb p b -> InBox Qltb (map (proj O p) dirs) (kdop_expand_box O dirs k b) /\ length (kdop_expand_box O dirs k b) = length dirs.
Proof.
  intros HF HD HLk Hp. unfold kdop_expand_box. cbn [o_ltb RndOps]. rewrite (proper_not_inverted b p) by done.
  assert (foldl (kdop_expand_point O dirs) k (corners b) = expand_points O k (map (fun c => map (proj O c) dirs) (corners b))) as ->.
  { unfold expand_points. generalize (corners b). intros l. revert k HLk. induction l as [|c l IH]; intros k HLk; [done|]. simpl. apply IH.
    unfold kdop_expand_point. rewrite expand_point_box. rewrite expand_box_length; [done|]. unfold point_box. rewrite !map_length. done. }
  set (l := map (fun c => map (proj O c) dirs) (corners b)).
  assert (forall q, q ∈ l -> length q = length k) as Hl.
  { intros q Hq. unfold l in Hq. apply elem_of_list_In, in_map_iff in Hq as (c&<-&_). rewrite map_length. done. }
  destruct (C36_expand_least O Qltb_SW k) as (_&_&H). destruct (H l Hl) as [H1 _].
  assert (length (expand_points O k l) = length dirs) as HLe.
  { rewrite <- HLk. symmetry. apply (Forall2_length _ _ _ (H1 k ltac:(left))). }
  split; [|done].
  assert (forall c, c ∈ corners b -> InBox Qltb (map (proj O c) dirs) (expand_points O k l)) as Hc.
  { intros c Hc. apply (point_box_in O). apply H1. right. apply elem_of_list_In, in_map. unfold l. apply elem_of_list_In in Hc. apply in_map_iff. by exists c. }
  apply Forall2_same_length_lookup. split; [rewrite map_length; done|]. intros i x [lo hi] Hx Hlh.
  change (map (proj O p) dirs) with (proj O p <$> dirs) in Hx. apply list_lookup_fmap_Some in Hx as (d&Hd&->).
  assert (length d = length b) as Hdb by (by apply (Forall_lookup_1 _ _ _ _ HF Hd)).
  destruct (extreme_proj b p d Hp Hdb) as [H3 H4].
  assert (forall up, (lo <= proj O (extreme up b d) d)%Q /\ (proj O (extreme up b d) d <= hi)%Q) as Hup.
  { intros up. pose proof (Forall2_lookup_lr _ _ _ i (proj O (extreme up b d) d) (lo, hi) (Hc _ (extreme_corner up b d Hdb HD))) as Hb.
    cbn [fst snd] in Hb. rewrite !Qltb_ge in Hb. apply Hb; [|done]. change (map (proj O (extreme up b d)) dirs) with (proj O (extreme up b d) <$> dirs).
    by rewrite list_lookup_fmap, Hd. }
  cbn [fst snd]. rewrite !Qltb_ge. destruct (Hup true), (Hup false). split; lra.
Qed.
End C61.

Lemma directions_dim DIM k dirs : kdop_directions DIM k = Some dirs -> (DIM = 2 \/ DIM = 3) /\ Forall (fun d => length d = DIM) dirs /\
  exists rest, dirs = match DIM with 2 => [[1; 0]; [0; 1]]%Z | _ => [[1; 0; 0]; [0; 1; 0]; [0; 0; 1]]%Z end ++ rest.
Proof.
  unfold kdop_directions. intros H. repeat match goal with H : match ?n with O => _ | S _ => _ end = Some _ |- _ => destruct n; try discriminate end;
    injection H as <-; (split; [lia|]); (split; [repeat constructor|]); eexists; simpl; reflexivity.
Qed.

(** A k-DOP expanded by a box (nonempty, or the theorem says nothing) contains every point of it: the point test accepts.
    In any monotone arithmetic. *)
Theorem C61_expand_covers : forall rnd sq, Rounding rnd sq -> forall DIM kk dirs k b p,
  kdop_directions DIM kk = Some dirs -> length b = DIM -> length k = length dirs -> InBox Qltb p b ->
  kdop_intersects_point (RndOps rnd sq) dirs p (kdop_expand_box (RndOps rnd sq) dirs k b) = true.
Proof.
  intros rnd sq HR DIM kk dirs k b p Hd HL HLk Hp. apply directions_dim in Hd as (HD&HF&_). rewrite <- HL in HD, HF.
  destruct (box_in_kdop rnd sq HR dirs k b p HF HD HLk Hp) as [H1 H2]. unfold kdop_intersects_point.
  apply (C37_overlap _ (RndOps rnd sq) Qltb_SW [] _ _ (BoxIn_refl (RndOps rnd sq) Qltb_SW _)); [|done]. rewrite map_length. done.
Qed.

(** No false negatives: a k-DOP and a box, or two k-DOPs, with a common point are reported to intersect. *)
Theorem C61_no_false_negative : forall rnd sq, Rounding rnd sq -> forall DIM kk dirs fmin fmax k p,
  kdop_directions DIM kk = Some dirs -> length k = length dirs -> kdop_intersects_point (RndOps rnd sq) dirs p k = true ->
  (forall b, length b = DIM -> InBox Qltb p b -> kdop_intersects_box (RndOps rnd sq) dirs fmin fmax k b = true) /\
  (forall l, length l = length dirs -> kdop_intersects_point (RndOps rnd sq) dirs p l = true -> kdop_intersects_kdop (RndOps rnd sq) k l = true).
Proof.
  intros rnd sq HR DIM kk dirs fmin fmax k p Hd HLk Hk.
  assert (forall l, length l = length dirs -> kdop_intersects_point (RndOps rnd sq) dirs p l = true -> InBox Qltb (map (proj (RndOps rnd sq) p) dirs) l) as Hin.
  { intros l HLl Hl. apply (C37_overlap _ (RndOps rnd sq) Qltb_SW [] _ _ (BoxIn_refl (RndOps rnd sq) Qltb_SW _)); [rewrite map_length; done|done]. }
  assert (forall l, length l = length dirs -> kdop_intersects_point (RndOps rnd sq) dirs p l = true -> kdop_intersects_kdop (RndOps rnd sq) k l = true) as Hkk.
  { intros l HLl Hl. destruct (C37_overlap _ (RndOps rnd sq) Qltb_SW k l l (BoxIn_refl (RndOps rnd sq) Qltb_SW _)) as (_&Ho&_).
    apply (Ho (map (proj (RndOps rnd sq) p) dirs)); [by apply Hin|congruence|by apply Hin]. }
  split; [|done]. intros b HLb Hb. assert (length (empty_box (length dirs) fmin fmax) = length dirs) as HLe by apply replicate_length.
  apply Hkk.
  - pose proof Hd as Hd'. apply directions_dim in Hd' as (HD&HF&_). rewrite <- HLb in HD, HF. by apply (box_in_kdop rnd sq HR dirs _ b p).
  - by apply (C61_expand_covers rnd sq HR DIM kk).
Qed.

(** The box around a k-DOP contains every point it contains (coordinates are numbers of the format). *)
Theorem C61_box_around : forall rnd sq, Rounding rnd sq -> forall DIM kk dirs k b p,
  kdop_directions DIM kk = Some dirs -> length k = length dirs -> length b = DIM -> length p = DIM -> Forall (fun x => rnd x == x)%Q p ->
  kdop_intersects_point (RndOps rnd sq) dirs p k = true -> InBox Qltb p (box_expand_kdop (RndOps rnd sq) b k).
Proof.
  intros rnd sq HR DIM kk dirs k b p Hd HLk HLb HLp Hrep Hk.
  assert (InBox Qltb (map (proj (RndOps rnd sq) p) dirs) k) as Hin.
  { apply (C37_overlap _ (RndOps rnd sq) Qltb_SW [] _ _ (BoxIn_refl (RndOps rnd sq) Qltb_SW _)); [rewrite map_length; done|done]. }
  apply directions_dim in Hd as (HD&HF&rest&Hdirs). assert (DIM <= length dirs) as Hlen by (rewrite Hdirs, app_length; destruct HD as [-> | ->]; simpl; lia).
  unfold box_expand_kdop. apply (InBox_trans (RndOps rnd sq) Qltb_SW _ (take (length b) k)).
  2:{ apply (expand_box_in (RndOps rnd sq) Qltb_SW). rewrite take_length. lia. }
  assert (forall x y, (x == y)%Q -> (rnd x == rnd y)%Q) as Hp.
  { intros x y E. apply Qle_antisym; apply HR; lra. }
  pose proof (rd_zero _ _ HR) as Hz.
  assert (forall l, InBox Qltb (map (proj (RndOps rnd sq) p) dirs) l -> DIM <= length l -> InBox Qltb p (take DIM l)) as H; [|rewrite HLb; apply H; [done|lia]].
  assert (Morphisms.Proper (Morphisms.respectful Qeq Qeq) rnd) as HPr by (intros ? ? ?; by apply Hp).
  assert (forall u, rnd (u * 0) == 0)%Q as E0 by (intros u; rewrite (Hp (u * 0) 0)%Q by ring; done).
  assert (forall u, rnd (u * 1) == rnd u)%Q as E1 by (intros u; apply Hp; ring).
  clear -HD Hdirs HLp Hrep HPr Hz E0 E1. intros l Hl HLl. rewrite Hdirs in Hl.
  destruct HD as [-> | ->].
  - destruct p as [|x [|y [|]]]; try discriminate. do 2 (apply Forall_cons in Hrep as [? Hrep]).
    destruct l as [|[l1 h1] [|[l2 h2] l]]; simpl in HLl; try lia. simpl in Hl.
    inversion Hl as [|? ? ? ? [A1 A2] Hl1]; subst. inversion Hl1 as [|? ? ? ? [A3 A4] Hl2]; subst. simpl in A1, A2, A3, A4. rewrite !Qltb_ge in A1, A2, A3, A4.
    assert (rnd (rnd (x * 1) + rnd (y * 0)) == x)%Q as Ex by (rewrite E0, E1, H, Qplus_0_r, H; reflexivity).
    assert (rnd (rnd (x * 0) + rnd (y * 1)) == y)%Q as Ey by (rewrite E0, E1, H0, Qplus_0_l, H0; reflexivity).
    unfold proj, entry in A1, A2, A3, A4. simpl in A1, A2, A3, A4. simpl. repeat constructor; simpl; rewrite !Qltb_ge; lra.
  - destruct p as [|x [|y [|z [|]]]]; try discriminate. do 3 (apply Forall_cons in Hrep as [? Hrep]).
    destruct l as [|[l1 h1] [|[l2 h2] [|[l3 h3] l]]]; simpl in HLl; try lia. simpl in Hl.
    inversion Hl as [|? ? ? ? [A1 A2] Hl1]; subst. inversion Hl1 as [|? ? ? ? [A3 A4] Hl2]; subst. inversion Hl2 as [|? ? ? ? [A5 A6] Hl3]; subst.
    simpl in A1, A2, A3, A4, A5, A6. rewrite !Qltb_ge in A1, A2, A3, A4, A5, A6.
    assert (rnd (rnd (rnd (x * 1) + rnd (y * 0)) + rnd (z * 0)) == x)%Q as Ex by (rewrite !E0, E1, H, !Qplus_0_r, H, H; reflexivity).
    assert (rnd (rnd (rnd (x * 0) + rnd (y * 1)) + rnd (z * 0)) == y)%Q as Ey by (rewrite !E0, E1, H0, Qplus_0_r, Qplus_0_l, H0, H0; reflexivity).
    assert (rnd (rnd (rnd (x * 0) + rnd (y * 0)) + rnd (z * 1)) == z)%Q as Ez by (rewrite !E0, E1, H1, Qplus_0_l, Hz, Qplus_0_l, H1; reflexivity).
    unfold proj, entry in A1, A2, A3, A4, A5, A6. simpl in A1, A2, A3, A4, A5, A6. simpl. repeat constructor; simpl; rewrite !Qltb_ge; lra.
Qed.

(** What nodes are joined with: the union of two k-DOPs contains every point of both and is the least such k-DOP; expanding by a point adds the
    point and loses none. *)
Theorem C61_join : forall rnd sq, Rounding rnd sq -> forall dirs k l, length k = length dirs -> length l = length dirs ->
  let O := RndOps rnd sq in
  (forall p, kdop_intersects_point O dirs p k = true \/ kdop_intersects_point O dirs p l = true -> kdop_intersects_point O dirs p (kdop_expand_kdop O k l) = true) /\
  (forall m, BoxIn Qltb k m -> BoxIn Qltb l m -> BoxIn Qltb (kdop_expand_kdop O k l) m) /\
  (forall p q, q = p \/ kdop_intersects_point O dirs q k = true -> kdop_intersects_point O dirs q (kdop_expand_point O dirs k p) = true) /\
  (forall p m, BoxIn Qltb k m -> kdop_intersects_point O dirs p m = true -> length m = length dirs -> BoxIn Qltb (kdop_expand_point O dirs k p) m).
Proof.
  intros rnd sq HR dirs k l HLk HLl O.
  assert (forall p m, length m = length dirs -> kdop_intersects_point O dirs p m = true <-> InBox Qltb (map (proj O p) dirs) m) as Hin.
  { intros p m HLm. unfold kdop_intersects_point. apply (C37_overlap _ O Qltb_SW [] _ _ (BoxIn_refl O Qltb_SW _)). by rewrite map_length. }
  destruct (C36_expand_least O Qltb_SW k) as (H1 & H2 & _). destruct (H1 l ltac:(congruence)) as [H3 H4].
  assert (BoxIn Qltb k (kdop_expand_kdop O k l)) as Hk by (apply H3; left). assert (BoxIn Qltb l (kdop_expand_kdop O k l)) as Hl by (apply H3; right; left).
  pose proof (Forall2_length _ _ _ Hk) as HLj.
  split_and!.
  - intros p [H|H]; apply Hin in H; try done; (apply Hin; [congruence|]).
    + by apply (InBox_trans O Qltb_SW _ k).
    + by apply (InBox_trans O Qltb_SW _ l).
  - intros m Hkm Hlm. apply H4; [transitivity (length k); [symmetry; apply (Forall2_length _ _ _ Hkm)|exact HLj]|]. intros c Hc. apply elem_of_cons in Hc as [->|Hc]; [done|]. apply elem_of_list_singleton in Hc as ->. done.
  - intros p q Hq. destruct (H2 (map (proj O p) dirs) ltac:(rewrite map_length; congruence)) as [H5 _].
    assert (BoxIn Qltb k (kdop_expand_point O dirs k p)) as Hk' by (apply H5; left). pose proof (Forall2_length _ _ _ Hk') as HL'.
    apply Hin; [congruence|]. destruct Hq as [->|Hq].
    + apply (point_box_in O). apply H5. right. left.
    + apply (InBox_trans O Qltb_SW _ k); [by apply Hin|done].
  - intros p m Hkm Hpm HLm. destruct (H2 (map (proj O p) dirs) ltac:(rewrite map_length; congruence)) as [H5 H6].
    assert (BoxIn Qltb k (kdop_expand_point O dirs k p)) as Hk' by (apply H5; left). apply H6; [transitivity (length k); [congruence|exact (Forall2_length _ _ _ Hk')]|].
    intros c Hc. apply elem_of_cons in Hc as [->|Hc]; [done|]. apply elem_of_list_singleton in Hc as ->. apply (point_box_in O). by apply Hin.
Qed.

(** A tree whose nodes are k-DOPs over points: the join is that of C36 and point queries prune safely. *)
Theorem C61_tree : forall rnd sq, Rounding rnd sq -> forall DIM kk dirs (pts : nat -> list Q) b,
  kdop_directions DIM kk = Some dirs -> length b = DIM -> (forall i, length (pts i) = DIM) -> forall fmin fmax,
  PruneSafe (fun k l => length l = length dirs /\ BoxIn Qltb k l) (fun i => point_box (map (proj (RndOps rnd sq) (pts i)) dirs))
    (fun i => intersects_pb (RndOps rnd sq) (pts i) b) (fun k => kdop_intersects_box (RndOps rnd sq) dirs fmin fmax k b).
Proof.
  intros rnd sq HR DIM kk dirs pts b Hd HLb Hpts fmin fmax i k [HLk Hk] Hb.
  destruct (C61_no_false_negative rnd sq HR DIM kk dirs fmin fmax k (pts i)) as [H _]; [done|done| |apply H; [done|]].
  - apply (C37_overlap _ (RndOps rnd sq) Qltb_SW [] _ _ (BoxIn_refl (RndOps rnd sq) Qltb_SW _)); [by rewrite map_length|]. by apply (point_box_in (RndOps rnd sq)).
  - destruct (C37_overlap _ (RndOps rnd sq) Qltb_SW [] _ _ (BoxIn_refl (RndOps rnd sq) Qltb_SW b)) as (_&_&Ho). apply (Ho (pts i)); [|done]. rewrite Hpts. done.
Qed.

(** The corners matter: the diamond |x + y| <= 1 around the origin does not meet the box [1, 2]^2 though their
    bounding boxes do; and the octagon does meet [0, 1/2]^2, sharing the origin. *)
Example C61_example : exists dirs, kdop_directions 2 8 = Some dirs /\
  let k := [(-1, 1); (-1, 1); (-1, 1); (-1, 1)]%Q in let O := RndOps floor4 (fun x => x) in
  kdop_intersects_box O dirs (-100)%Q 100%Q k [(1, 2); (1, 2)]%Q = false /\
  kdop_intersects_box O dirs (-100)%Q 100%Q k [(0, 1 # 2); (0, 1 # 2)]%Q = true /\
  kdop_intersects_point O dirs [0; 0]%Q k = true /\
  map (fun '(l, h) => (Qred l, Qred h)) (kdop_expand_box O dirs (empty_box 4 (-100) 100)%Q [(0, 1); (0, 2)]%Q) = [(0, 1); (0, 2); (0, 3); (-2, 1)]%Q.
Proof. eexists. split; [reflexivity|]. vm_compute. done. Qed.
Print Assumptions C61_expand_covers.
Print Assumptions C61_no_false_negative.
Print Assumptions C61_box_around.
Print Assumptions C61_tree.
Print Assumptions C61_join.

(** Two octagons around one point each: the union contains both points, and the point between them. *)
Example C61_join_example : exists dirs, kdop_directions 2 8 = Some dirs /\
  let O := RndOps floor4 (fun x => x) in let k := [(0, 0); (0, 0); (0, 0); (0, 0)]%Q in let l := [(2, 2); (1, 1); (3, 3); (1, 1)]%Q in
  length k = length dirs /\ length l = length dirs /\ kdop_intersects_point O dirs [0; 0]%Q k = true /\ kdop_intersects_point O dirs [2; 1]%Q l = true /\
  kdop_intersects_point O dirs [0; 0]%Q l = false /\ kdop_expand_kdop O k l = [(0, 2); (0, 1); (0, 3); (0, 1)]%Q /\ map (fun '(x, y) => (Qred x, Qred y)) (kdop_expand_point O dirs k [2; 1]%Q) = kdop_expand_kdop O k l /\
  kdop_intersects_point O dirs [1; 1 # 2]%Q (kdop_expand_kdop O k l) = true /\ kdop_intersects_point O dirs [0; 1]%Q (kdop_expand_kdop O k l) = false.
Proof. eexists. split; [reflexivity|]. vm_compute. done. Qed.
