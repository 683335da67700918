(** C24: DBSCAN with the DenseBox implementation, for every interleaving of every kernel. *)
From Verif Require Import TraversalSpec TraversalProof PropertiesTraversal TreeConstructionProof.
From Verif Require Export DenseBoxProof.
Local Open Scope nat_scope.

Lemma Kernel_mono {St} (step : St -> nat -> option St) live s0 (P Q : St -> Prop) : (forall s, P s -> Q s) -> Kernel step live s0 P -> Kernel step live s0 Q.
Proof. intros H (b & HK). exists b. intros ts s He. destruct (HK ts s He) as (H1 & H2 & H3). auto. Qed.

Lemma spatial_query_ext {V St} (T : tree V) pl pv (cb cb' : St -> nat -> St * bool) : (forall s v, cb s v = cb' s v) ->
  forall st, spatial_query T pl pv cb st = spatial_query T pl pv cb' st.
Proof.
  intros H st. assert (forall fuel node s, spatial_loop T pl pv cb fuel node s = spatial_loop T pl pv cb' fuel node s) as HL.
  { induction fuel as [|fuel IH]; intros [i|] s; simpl; [done|done| |done].
    destruct (isLeaf T i).
    - destruct (getValue T i); [|done]. destruct (getRope T i); [|done]. destruct (pl n); [|apply IH]. rewrite H. destruct (cb' s n) as [s' []]; [done|apply IH].
    - destruct (getVolume T i); [|done]. destruct (getLeftChild T i); [|done]. destruct (getRope T i); [|done]. apply IH. }
  unfold spatial_query. destruct (t_size T) as [|[|k]]; [done| |apply HL]. destruct (getValue T 0); [|done]. by rewrite H.
Qed.
Lemma mixed_callback_ext near pm dco nd star swap core core' i : (forall j, core j = core' j) ->
  forall st k, mixed_callback near pm dco nd star swap core i st k = mixed_callback near pm dco nd star swap core' i st k.
Proof.
  intros H st k. unfold mixed_callback. rewrite H. destruct (core' i); [|done]. destruct st; simpl; [|done].
  assert (mixed_block near pm dco nd star swap core i k = mixed_block near pm dco nd star swap core' i k) as ->; [|done].
  unfold mixed_block. destruct (k <? _); [done|]. destruct (pm !! _); simpl; [|done]. by rewrite H.
Qed.
Lemma GoodL_iff n (C C' : nat -> Prop) R progs L : (forall c, C c <-> C' c) -> GoodL n C R progs L -> GoodL n C' R progs L.
Proof.
  intros H [G1 G2 G3 G4]. constructor; [done| | |].
  - intros c Hc. apply H in Hc. intros Hn. destruct (G2 c Hc Hn). by rewrite <- H.
  - intros c Hc. apply G3. by apply H.
  - intros x Hx Hc. rewrite <- H in Hc. destruct (G4 x Hx Hc) as [|(? & ? & G)]; [by left|]. right. by rewrite <- H.
Qed.

(** [near] is the distance test, [cell] the grid cell, [hit] the sphere-box test for a cell (the contract the grid has to
    meet is [CellContract]; see C25 for when it does).  Every kernel is run under any schedule, the tree is any valid index
    over the mixed primitives, and the labels are a valid DBSCAN (or DBSCAN-star) clustering. *)
Theorem C24_densebox_valid : forall V (le : V -> V -> Prop) cellvol ptvol near hit pv cell n minpts big (star swap : bool),
  (forall a b, near a b = near b a) -> (forall a, near a a = true) -> CellContract near hit cell ->
  (forall i c v, le (cellvol c) v -> hit i c = true -> pv i v = true) ->
  (forall i j v, le (ptvol j) v -> near i j = true -> pv i v = true) ->
  2 <= minpts -> minpts <= big ->
  forall permute order scratch, permute ≡ₚ seq 0 n -> order ≡ₚ seq 0 (S n) -> length scratch = S n ->
  densebox le cellvol ptvol near hit pv n minpts big star swap (map cell permute) permute order scratch
    (if star then ValidDBSCANStar n minpts near else ValidDBSCAN n minpts near).
Proof.
  intros V le cellvol ptvol near hit pv cell n minpts big star swap Hsym Hrefl HCC PSc PSp Hm Hbig permute order scratch HP Ho Hs.
  assert (length permute = n) as HLp by (rewrite HP; apply seq_length).
  destruct (runs_of order (map cell permute) scratch) as (offs & Eo & HR); [by rewrite map_length, HLp|by rewrite map_length, HLp|].
  exists offs. split; [done|]. pose proof (runs_offsets _ _ HR) as HO. rewrite map_length, HLp in HO.
  eapply Kernel_mono; [|apply (C26_reorder_dense_first offs (map cell permute) permute minpts n HO); [by rewrite map_length|done]].
  intros s (idx & pm & E1 & E2 & HD). exists idx, pm. split; [done|]. split; [done|]. cbv zeta. set (nd := num_dense_points offs minpts) in *.
  destruct (layout_of near hit cell n minpts offs permute idx pm nd HCC HP HR HD) as (L1 & L2 & L3 & L4).
  intros order2 scratch2 Ho2 Hs2.
  assert (length (take nd idx) = nd) as Hlt.
  { rewrite take_length. apply Nat.min_l. assert (length pm = n) as HL by (rewrite L1; apply seq_length).
    destruct nd as [|d]; [lia|]. destruct (lookup_lt_is_Some_2 pm d) as [i Hi]; [lia|]. apply L2, lookup_lt_Some in Hi. lia. }
  destruct (runs_of order2 (take nd idx) scratch2) as (dco & Ed & HR2); [by rewrite Hlt|by rewrite Hlt|].
  exists dco. split; [done|]. assert (Layout near cell n minpts idx pm dco nd) as LY by (by constructor).
  destruct (decide (minpts = 2)) as [->|Hne].
  - destruct (kernels_generic le near hit pv cell n 2 big idx pm dco nd cellvol ptvol) with (star := false) (swap := swap) (core := fun _ : nat => true) (E := NearEdge n near)
      (rest := fun (progs2 : list (list uop)) (s2 : ustate) (T : tree V) (tperm : list nat) => forall counts, finish 2 counts (u_labels s2) (if star then ValidDBSCANStar n 2 near else ValidDBSCAN n 2 near))
      as (progs1 & Ep & HK); try assumption; try done.
    + intros a b (? & ? & _). done.
    + intros a b Ha Hb. unfold NearEdge. tauto.
    + intros progs2 s2 T tperm G HE _ _ counts. apply (GoodL_iff n _ (fun _ => True)) in G; [|done].
      apply (finish_ok n); [apply G|by eapply special_Pt|]. intros out Hl Hout.
      destruct (special_out n near _ Hsym Hrefl (u_labels s2) G HE counts out Hl Hout) as [V1 V2]. by destruct star.
    + exists progs1. split; [done|]. eapply Kernel_mono; [|exact HK]. intros s1 HK1 T tperm HI HPt.
      destruct (DenseCounts_exist V le (mixed_vol idx pm dco nd cellvol ptvol) tperm T near hit pv cell n 2 big idx pm dco nd) as (counts & HC & _); eauto; [intros; by eapply mixed_prune|].
      exists counts. split; [done|]. destruct (HK1 T tperm HI HPt) as (progs2 & HF & HK2). exists progs2. split; [done|].
      eapply Kernel_mono; [|exact HK2]. auto.
  - set (core i := (i <? n) && (minpts <=? length (List.filter (near i) (seq 0 n)))).
    assert (forall i, core i = true <-> Core n minpts near i) as Hcore.
    { intros i. unfold core, Core. rewrite andb_true_iff, Nat.ltb_lt, Nat.leb_le. done. }
    destruct (kernels_generic le near hit pv cell n minpts big idx pm dco nd cellvol ptvol) with (star := star) (swap := swap) (core := core) (E := CoreEdge n minpts near)
      (rest := fun (progs2 : list (list uop)) (s2 : ustate) (T : tree V) (tperm : list nat) => forall counts, (forall i, is_core counts minpts i = true <-> Core n minpts near i) ->
          finish minpts counts (u_labels s2) (if star then ValidDBSCANStar n minpts near else ValidDBSCAN n minpts near))
      as (progs1 & Ep & HK); try assumption; try done.
    + intros p i Hp Hi. apply Hcore. eauto.
    + intros a b ([? _] & [? _] & _). done.
    + intros a b Ha Hb. unfold CoreEdge. by rewrite !Hcore.
    + intros progs2 s2 T tperm G HE Hinto Hb counts HC.
      assert (forall i, is_core counts minpts i = core i) as Eco by (intros i; apply eq_true_iff_eq; by rewrite HC, Hcore).
      apply (GoodL_iff n _ (fun c : nat => is_core counts minpts c = true)) in G; [|intros c; by rewrite Eco].
      assert (forall prog x j, prog ∈ progs2 -> Into x j ∈ prog -> near x j = true /\ is_core counts minpts j = true) as HI.
      { intros prog x j Hp Hop. rewrite Eco. by destruct (Hinto _ _ _ Hp Hop) as (_ & ? & ?). }
      apply (finish_ok n); [apply G|by eapply (G_Pt n minpts near counts)|]. intros out Hl Hout. destruct star.
      * eapply valid_star; eauto. intros x Hx Hcx. destruct (gl_other _ _ _ _ _ G x Hx) as [Ex|(_ & _ & prog & j & Hp & Hop & _)];
          [congruence|done|]. by destruct (Hinto _ _ _ Hp Hop).
      * eapply valid; eauto. intros x Hx Hcx (j & Hj & Hn). rewrite Eco in *. apply Hb; auto. exists j. split; [done|]. split; [|done]. by apply Hcore in Hj as [? _].
    + exists progs1. split; [done|]. eapply Kernel_mono; [|exact HK]. intros s1 HK1 T tperm HI HPt.
      destruct (DenseCounts_exist V le (mixed_vol idx pm dco nd cellvol ptvol) tperm T near hit pv cell n minpts big idx pm dco nd) as (counts & HC & Hco); eauto; [lia|intros; by eapply mixed_prune|].
      exists counts. split; [done|]. destruct (HK1 T tperm HI HPt) as (progs2 & HF & HK2). exists progs2. split.
      * unfold MixedProgs. destruct (Nat.eqb_spec minpts 2); [done|]. eapply Forall2_impl; [exact HF|]. simpl. intros i prog Hq. rewrite <- Hq.
        apply spatial_query_ext. intros. apply mixed_callback_ext. intros j. apply eq_true_iff_eq. by rewrite Hco, Hcore.
      * eapply Kernel_mono; [|exact HK2]. auto.
Qed.
Print Assumptions C24_densebox_valid.

(** Example: nine points on a line, eps = 2, cells of width 2 and three points per core point.  Cells 0 and 3 are dense.
    [densebox_exec] runs the program with the given schedules on a tree built by the construction model. *)
Definition db_pos (i : nat) : nat := nth i [6; 1; 20; 0; 7; 1; 9; 6; 3] 0.
Definition db_q (i : nat) : Z * Z * Z := (Z.of_nat (db_pos i), 0%Z, 0%Z).
Definition db_pt (i : nat) : zbox := pt3 (Z.of_nat (db_pos i)) 0 0.
Definition db_cell (i : nat) : nat := db_pos i / 2.
Definition db_box (c : nat) : zbox := Some ((2 * Z.of_nat c, 2 * Z.of_nat c + 2)%Z, (0, 0)%Z, (0, 0)%Z).
Definition db_pv (i : nat) (v : zbox) : bool := (zdist (db_q i) v <=? 4)%Z.
Definition db_near (i j : nat) : bool := db_pv i (db_pt j).
Definition db_hit (i c : nat) : bool := db_pv i (db_box c).
Lemma db_dist x y : zdist (x, 0, 0)%Z (pt3 y 0 0) = ((x - y) * (x - y))%Z.
Proof.
  unfold zdist, pt3, gap. simpl. destruct (Z.max_spec 0 (Z.max (y - x) (x - y))) as [[? ->]|[? ->]];
    destruct (Z.max_spec (y - x) (x - y)) as [[? E]|[? E]]; rewrite ?E in *; nia.
Qed.
Example db_hyps : (forall a b, db_near a b = db_near b a) /\ (forall a, db_near a a = true) /\ CellContract db_near db_hit db_cell /\
  (forall i c v, zle (db_box c) v -> db_hit i c = true -> db_pv i v = true) /\
  (forall i j v, zle (db_pt j) v -> db_near i j = true -> db_pv i v = true).
Proof.
  unfold db_near, db_hit, db_pv. split.
  { intros a b. unfold db_q, db_pt. rewrite !db_dist. f_equal. ring. }
  split. { intros a. unfold db_q, db_pt. rewrite !db_dist. apply Z.leb_le. nia. }
  split; [split|split].
  - intros a b H. unfold db_q, db_pt. rewrite !db_dist. apply Z.leb_le. unfold db_cell in H.
    pose proof (Nat.div_mod (db_pos a) 2 ltac:(lia)). pose proof (Nat.div_mod (db_pos b) 2 ltac:(lia)).
    pose proof (Nat.mod_upper_bound (db_pos a) 2 ltac:(lia)). pose proof (Nat.mod_upper_bound (db_pos b) 2 ltac:(lia)).
    rewrite H in *. generalize dependent (db_pos b / 2). generalize dependent (db_pos a mod 2). generalize dependent (db_pos b mod 2). intros. nia.
  - intros a b H. apply Z.leb_le in H. apply Z.leb_le. etransitivity; [|exact H]. apply zdist_mono; [|discriminate].
    unfold db_pt, db_box, pt3, zle, itv_in, db_cell. simpl fst. simpl snd.
    pose proof (Nat.div_mod (db_pos b) 2 ltac:(lia)). pose proof (Nat.mod_upper_bound (db_pos b) 2 ltac:(lia)).
    generalize dependent (db_pos b / 2). generalize dependent (db_pos b mod 2). intros. repeat split; lia.
  - intros i c v Hle H. apply Z.leb_le in H. apply Z.leb_le. pose proof (zdist_mono (db_q i) _ _ Hle ltac:(discriminate)). lia.
  - intros i j v Hle H. apply Z.leb_le in H. apply Z.leb_le. pose proof (zdist_mono (db_q i) _ _ Hle ltac:(discriminate)). lia.
Qed.
Definition db_permute : list nat := [3; 1; 5; 8; 0; 7; 4; 6; 2].
Definition densebox_exec (star : bool) (n minpts : nat) (sorted permute : list nat) (t1 t2 t3 t4 : list nat) : option (list nat * list nat * list Z) :=
  offs ← computeOffsetsInOrderedView Nat.eqb (seq 0 (S n)) sorted (replicate (S n) 0);
  s ← rrun offs sorted permute minpts (rinit offs sorted permute minpts) t1;
  idx ← mapM id (r_idx s); pm ← mapM id (r_perm s);
  let nd := num_dense_points offs minpts in
  dco ← computeOffsetsInOrderedView Nat.eqb (seq 0 (S nd)) (take nd idx) (replicate (S nd) 0);
  progs1 ← dense_progs idx pm nd;
  s1 ← urun (uinit (seq 0 n) progs1) t2;
  let m := num_mixed dco nd n in
  T ← build_seq zjoin None (mixed_vol idx pm dco nd db_box db_pt) 64 (map Z.of_nat (seq 0 m)) (seq 0 m);
  counts ← mapM (fun i => if bool_decide (i ∈ take nd pm) then Some 1000
     else match spatial_query T (mixed_leaf db_near db_hit idx pm dco nd i) (db_pv i) (count_mixed db_near pm dco minpts i) (Some 0) with Ok c => c | _ => None end) (seq 0 n);
  progs2 ← mapM (fun i => match spatial_query T (mixed_leaf db_near db_hit idx pm dco nd i) (db_pv i)
       (if minpts =? 2 then mixed_callback db_near pm dco nd false false (fun _ => true) i
        else mixed_callback db_near pm dco nd star false (is_core counts minpts) i) (Some []) with Ok p => p | _ => None end) (seq 0 n);
  s2 ← urun (uinit (u_labels s1) progs2) t3;
  s3 ← frun (finit (u_labels s2)) t4;
  out ← mark_noise (minpts =? 2) (is_core counts minpts) (f_sizes s3) (f_labels s3);
  Some (dco, counts, out).
Example C24_example : db_permute ≡ₚ seq 0 9 /\ 2 <= 3 /\
  densebox_exec false 9 3 (map db_cell db_permute) db_permute (robin 9 5) (robin 12 5) (robin 60 9) (robin 12 9) =
    Some ([0; 3; 6], [1000; 1000; 1; 1000; 1000; 1000; 2; 1000; 3], [0; 1; -1; 1; 0; 1; 0; 0; 1]%Z) /\
  densebox_exec true 9 3 (map db_cell db_permute) db_permute (robin 9 5) (robin 12 5) (rev (robin 60 9)) (robin 12 9) =
    Some ([0; 3; 6], [1000; 1000; 1; 1000; 1000; 1000; 2; 1000; 3], [0; 1; -1; 1; 0; 1; -1; 0; 1]%Z).
Proof. split; [apply (bool_decide_unpack _); vm_compute; reflexivity|]. split; [lia|]. vm_compute. split; reflexivity. Qed.
