(** All interleavings of the hierarchy construction build the same valid tree (proof file). *)
From Verif Require Export TreeShapeProof.

Lemma mapM_id_lookup {A} (l : list (option A)) k : mapM id l = Some k ->
  forall i, l !! i = Some <$> (k !! i).
Proof.
  revert k; induction l as [|a l IH]; intros k H i.
  - injection H as <-. done.
  - cbn in H. destruct a as [a|]; [|done]. cbn in H.
    destruct (mapM id l) as [k'|] eqn:E; [|done]. cbn in H. injection H as <-.
    destruct i; [done|]. simpl. by apply IH.
Qed.
Lemma mapM_id_Some {A} (l : list (option A)) : (forall i, i < length l -> exists x, l !! i = Some (Some x)) ->
  exists k, mapM id l = Some k.
Proof.
  induction l as [|a l IH]; intros H; [by exists []|].
  destruct (H 0) as [x Hx]; [simpl; lia|]. simpl in Hx. injection Hx as ->.
  destruct IH as [k Hk]. { intros i Hi. apply (H (S i)). simpl; lia. }
  exists (x :: k). cbn. by rewrite Hk.
Qed.

Lemma Covers_det {V} (T : tree V) i l r rp : Covers T i l r rp -> forall l' r' rp',
  Covers T i l' r' rp' -> l = l' /\ r = r' /\ rp = rp'.
Proof.
  induction 1 as [i rp nd H1 H2 H3|i l s r rp c2 nd H1 H2 H3 H4 HL IHL HR IHR]; intros l' r' rp' H'.
  - inversion H'; subst; [|lia]. split; [done|]. split; [done|]. congruence.
  - inversion H' as [|? ? s' ? ? c2' nd' G1 G2 G3 G4 GL GR]; subst; [lia|].
    assert (nd' = nd) by (rewrite H2 in G2; by injection G2). subst nd'.
    destruct (IHL _ _ _ GL) as (<- & <- & E). injection E as <-.
    destruct (IHR _ _ _ GR) as (_ & -> & _). auto.
Qed.

Section Proof.
Context {V : Type} (le : V -> V -> Prop) (join : V -> V -> V) (bot : V).
Hypothesis JS : JoinSemi le join bot.
Variable vol : nat -> V.
Variable perm : list nat.
Variable m : nat.
Hypothesis m_pos : 1 <= m.
Hypothesis perm_len : length perm = S m.
Variable delta : Z -> Z.
Hypothesis GD : GoodDelta m delta.

Definition e (j : nat) : Z := delta (Z.of_nat j - 1).

Lemma delta_e r : delta (Z.of_nat r) = e (S r).
Proof. unfold e. f_equal. lia. Qed.

Lemma e_out k : 1 <= k <= m -> (e k < e 0)%Z /\ (e k < e (S m))%Z.
Proof. intros Hk. unfold e. split; apply (gd_out _ _ GD); lia. Qed.
Lemma e_ends : (e 0 <= e (S m))%Z.
Proof. pose proof (gd_ends _ _ GD). unfold e. replace (Z.of_nat (S m) - 1)%Z with (Z.of_nat m) by lia. done. Qed.
Lemma e_tie i j : 1 <= i < j -> j <= m -> e i = e j -> exists k, i < k < j /\ (e i < e k)%Z.
Proof.
  intros Hi Hj E. destruct (gd_tie _ _ GD (Z.of_nat i - 1) (Z.of_nat j - 1)) as (k & Hk & Hlt); try lia; [done|].
  exists (Z.to_nat (k + 1)). split; [lia|]. unfold e. replace (Z.of_nat (Z.to_nat (k + 1)) - 1)%Z with k by lia. done.
Qed.

Notation Nd := (TreeShapeProof.Nd m e).
Notation Kids := (TreeShapeProof.Kids m e).
Notation K := (TreeShapeProof.K e).
Notation idx := (TreeShapeProof.idx m e).
Notation rope := (TreeShapeProof.rope m e).
Notation Hull := (IsHull le vol perm).
Notation step := (step join bot vol perm m delta).
Notation exec := (exec join bot vol perm m delta).

Local Definition Nd_leaf' := TreeShapeProof.Nd_leaf m m_pos e e_out e_tie.
Local Definition Kids_left' := TreeShapeProof.Kids_left m m_pos e e_out e_tie.
Local Definition Kids_right' := TreeShapeProof.Kids_right m m_pos e e_out e_tie.
Local Definition Kids_split' := TreeShapeProof.Kids_split m m_pos e e_out e_tie.
Local Definition Kids_range' := TreeShapeProof.Kids_range m m_pos e e_out e_tie.
Local Definition Nd_split' := TreeShapeProof.Nd_split m m_pos e e_out e_tie.
Local Definition Nd_parent_right' := TreeShapeProof.Nd_parent_right m m_pos e e_out e_tie.
Local Definition K_left' := TreeShapeProof.K_left m m_pos e e_out e_tie.
Local Definition K_right' := TreeShapeProof.K_right m m_pos e e_out e_tie.
Local Definition K_zero' := TreeShapeProof.K_zero m m_pos e e_out e_tie.
Local Definition rope_left' := TreeShapeProof.rope_left m m_pos e e_out e_tie.
Local Definition Nd_root' := TreeShapeProof.Nd_root m m_pos e e_out e_tie.
Local Definition split_exists' := TreeShapeProof.split_exists m m_pos e e_out e_tie.
Local Definition Nd_parent_left' := TreeShapeProof.Nd_parent_left m m_pos e e_out e_ends e_tie.
Local Definition K_lt' := TreeShapeProof.K_lt m m_pos e e_out e_ends e_tie.
Local Definition K_inj' := TreeShapeProof.K_inj m m_pos e e_out e_ends e_tie.
Local Definition K_surj' := TreeShapeProof.K_surj m m_pos e e_out e_ends e_tie.
Local Definition K_root' := TreeShapeProof.K_root m m_pos e e_out e_ends e_tie.

Lemma rope_of_rope r : rope_of m delta r (e (S r)) = rope r.
Proof.
  unfold rope_of, TreeShapeProof.rope. rewrite delta_e, Nat.add_1_r.
  destruct (negb _); [|done]. f_equal. 
Qed.

Lemma hull_leaf i o : perm !! i = Some o -> Hull (join bot (vol o)) i i.
Proof.
  intros Ho. split.
  - intros j p Hj Hp. assert (j = i) as -> by lia. assert (p = o) as -> by congruence. apply (js_r _ _ _ JS).
  - intros u Hu. apply (js_lub _ _ _ JS); [apply (js_bot _ _ _ JS)|]. by apply (Hu i o).
Qed.

Lemma hull_leaf' i o : perm !! i = Some o -> Hull (vol o) i i.
Proof.
  intros Ho. split.
  - intros j p Hj Hp. assert (j = i) as -> by lia. assert (p = o) as -> by congruence. apply (js_refl _ _ _ JS).
  - intros u Hu. by apply (Hu i o).
Qed.

Lemma hull_join a b l s r : l <= s < r -> Hull a l s -> Hull b (S s) r -> Hull (join a b) l r.
Proof.
  intros Hlr [A1 A2] [B1 B2]. split.
  - intros i o Hi Ho. destruct (decide (i <= s)).
    + eapply (js_trans _ _ _ JS); [apply (A1 i o); [lia|done]|apply (js_l _ _ _ JS)].
    + eapply (js_trans _ _ _ JS); [apply (B1 i o); [lia|done]|apply (js_r _ _ _ JS)].
  - intros u Hu. apply (js_lub _ _ _ JS); [apply A2|apply B2]; intros i o Hi; apply Hu; lia.
Qed.

Lemma hull_join' a b l s r : l <= s < r -> Hull a l s -> Hull b (S s) r -> Hull (join b a) l r.
Proof.
  intros Hlr [A1 A2] [B1 B2]. split.
  - intros i o Hi Ho. destruct (decide (i <= s)).
    + eapply (js_trans _ _ _ JS); [apply (A1 i o); [lia|done]|apply (js_r _ _ _ JS)].
    + eapply (js_trans _ _ _ JS); [apply (B1 i o); [lia|done]|apply (js_l _ _ _ JS)].
  - intros u Hu. apply (js_lub _ _ _ JS); [apply B2|apply A2]; intros i o Hi; apply Hu; lia.
Qed.

(** What a finished node looks like in memory. *)
Definition LeafOK (s : state V) i := exists o, perm !! i = Some o /\
  st_leaves s !! i = Some (Some {| l_rope := rope i; l_value := o |}).
Definition NodeOK (s : state V) l r := exists sp nd, Kids l sp r /\ st_nodes s !! K l r = Some (Some nd) /\
  n_left nd = idx l sp /\ n_rope nd = rope r /\ Hull (n_vol nd) l r.
Definition Built (s : state V) l r := (l = r -> LeafOK s l) /\ (l < r -> NodeOK s l r).

Definition ThOK (s : state V) (p : pc V) : Prop :=
  match p with
  | PInit | PDone => True
  | PLoop x => Nd (th_l x) (th_r x) /\ ~ (th_l x = 0 /\ th_r x = m) /\ th_i x = idx (th_l x) (th_r x) /\
      th_dl x = e (th_l x) /\ th_dr x = e (S (th_r x)) /\ Hull (th_bv x) (th_l x) (th_r x) /\
      Built s (th_l x) (th_r x)
  | PRead x lc sl sb => th_dl x = e (th_l x) /\ th_dr x = e (S (th_r x)) /\
      exists sp, Kids (th_l x) sp (th_r x) /\ lc = idx (th_l x) sp /\
      ((sb = S sp /\ sl = (S sp =? th_r x) /\ Hull (th_bv x) (th_l x) sp) \/
       (sb = sp /\ sl = (sp =? th_l x) /\ Hull (th_bv x) (S sp) (th_r x)))
  | PWrite x lc => th_dl x = e (th_l x) /\ th_dr x = e (S (th_r x)) /\
      exists sp, Kids (th_l x) sp (th_r x) /\ lc = idx (th_l x) sp /\ Hull (th_bv x) (th_l x) (th_r x)
  end.

Definition held (p : pc V) : option (nat * nat) :=
  match p with
  | PLoop x | PRead x _ _ _ | PWrite x _ => Some (th_l x, th_r x)
  | _ => None
  end.

Definition Holds (s : state V) l r := exists t p, st_pcs s !! t = Some p /\ held p = Some (l, r).
Definition Looping (s : state V) l r := exists t x, st_pcs s !! t = Some (PLoop x) /\ th_l x = l /\ th_r x = r.

Record Inv (s : state V) (arr : nat -> nat -> Prop) : Prop := {
  i_leaves : length (st_leaves s) = S m;
  i_nodes : length (st_nodes s) = m;
  i_ranges : length (st_ranges s) = m;
  i_pcs : length (st_pcs s) = S m;
  i_th : forall t p, st_pcs s !! t = Some p -> ThOK s p;
  i_held : forall l r, Holds s l r -> ~ arr l r /\
      (l < r -> forall sp, Kids l sp r -> arr l sp /\ arr (S sp) r) /\
      (l = r -> st_pcs s !! l <> Some PInit);
  i_uniq : forall t1 t2 p1 p2 x, st_pcs s !! t1 = Some p1 -> st_pcs s !! t2 = Some p2 ->
      held p1 = Some x -> held p2 = Some x -> t1 = t2;
  i_arr : forall l r, arr l r -> Nd l r /\ ~ (l = 0 /\ r = m) /\ Built s l r /\
      (l < r -> forall sp, Kids l sp r -> arr l sp /\ arr (S sp) r) /\
      (l = r -> st_pcs s !! l <> Some PInit);
  i_range : forall l sp r, Kids l sp r -> exists o, st_ranges s !! sp = Some o /\
      match o with
      | None => ~ arr l sp /\ ~ arr (S sp) r
      | Some v => (arr l sp /\ v = l) \/ (arr (S sp) r /\ v = r)
      end;
  i_prod : forall l sp r, Kids l sp r -> arr l sp -> arr (S sp) r ->
      arr l r \/ Holds s l r \/ (l = 0 /\ r = m /\ Built s 0 m);
  i_leaf : forall i p, st_pcs s !! i = Some p -> p <> PInit -> arr i i \/ Holds s i i;
  i_leaf1 : forall i x, st_leaves s !! i = Some (Some x) -> st_pcs s !! i <> Some PInit;
  i_once : forall k nd, st_nodes s !! k = Some (Some nd) ->
      exists l r, Nd l r /\ l < r /\ K l r = k /\
        (arr l r \/ Looping s l r \/
         (l = 0 /\ r = m /\ (forall sp, Kids 0 sp m -> arr 0 sp /\ arr (S sp) m) /\ ~ Holds s 0 m)) }.

Lemma Kids_Nd l sp r : Kids l sp r -> Nd l r.
Proof. by intros (_ & H & _). Qed.

Definition weight (p : pc V) : nat :=
  match p with
  | PInit => 3 * m + 2
  | PLoop x => 3 * (m - (th_r x - th_l x)) + 1
  | PRead x _ _ _ => 3 * (m - (th_r x - th_l x)) + 3
  | PWrite x _ => 3 * (m - (th_r x - th_l x)) + 2
  | PDone => 0
  end.
Definition total (s : state V) : nat := sum_list_with weight (st_pcs s).

Lemma sum_insert (l : list (pc V)) t p q : l !! t = Some p ->
  sum_list_with weight (<[t:=q]> l) + weight p = sum_list_with weight l + weight q.
Proof.
  revert t; induction l as [|a l IH]; intros [|t] H; simpl in *; try done.
  - injection H as ->. lia.
  - specialize (IH t H). lia.
Qed.

Lemma upd_inv {A} (l : list A) t p' u q : <[t:=p']> l !! u = Some q ->
  (u = t /\ q = p' /\ t < length l) \/ (u <> t /\ l !! u = Some q).
Proof.
  intros H. destruct (decide (u = t)) as [->|Hne].
  - assert (t < length l) by (apply lookup_lt_Some in H; by rewrite insert_length in H).
    rewrite list_lookup_insert in H by done. left. naive_solver.
  - rewrite list_lookup_insert_ne in H by done. auto.
Qed.

Lemma init_inv : Inv (init_state m) (fun _ _ => False).
Proof.
  assert (forall l r, ~ Holds (init_state m) l r) as HH.
  { intros l r (t & p & Hp & Hh). cbn [init_state st_pcs] in Hp. apply lookup_replicate in Hp as [-> _]. done. }
  constructor; cbn [init_state st_leaves st_nodes st_ranges st_pcs]; rewrite ?replicate_length; try done.
  - intros t p Hp. apply lookup_replicate in Hp as [-> _]. done.
  - intros l r H. by apply HH in H.
  - intros t1 t2 p1 p2 x H1 _ Hh _. apply lookup_replicate in H1 as [-> _]. done.
  - intros l sp r (A & (B & C) & D). exists None. split; [|auto]. apply lookup_replicate. split; [done|lia].
  - intros i p Hp Hne. apply lookup_replicate in Hp as [-> _]. done.
  - intros i x Hx. apply lookup_replicate in Hx as [? _]. done.
  - intros k nd Hx. apply lookup_replicate in Hx as [? _]. done.
Qed.

Definition s_pcs (s : state V) t p : state V :=
  {| st_leaves := st_leaves s; st_nodes := st_nodes s; st_ranges := st_ranges s; st_pcs := <[t:=p]> (st_pcs s) |}.

(** memory only grows *)
Lemma Built_leaves s s' : st_nodes s' = st_nodes s ->
  (forall i, LeafOK s i -> LeafOK s' i) -> forall l r, Built s l r -> Built s' l r.
Proof. intros E H l r [A B]. split; [auto|]. unfold NodeOK. rewrite E. auto. Qed.
Lemma Built_nodes s s' : st_leaves s' = st_leaves s ->
  (forall l r, NodeOK s l r -> NodeOK s' l r) -> forall l r, Built s l r -> Built s' l r.
Proof. intros E H l r [A B]. split; [|auto]. unfold LeafOK. rewrite E. auto. Qed.
Lemma ThOK_mono s s' p : (forall l r, Built s l r -> Built s' l r) -> ThOK s p -> ThOK s' p.
Proof. intros H. destruct p; simpl; naive_solver. Qed.

Lemma child_unique L sp R L' sp' R' l r : Kids L sp R -> Kids L' sp' R' ->
  ((l = L /\ r = sp) \/ (l = S sp /\ r = R)) -> ((l = L' /\ r = sp') \/ (l = S sp' /\ r = R')) -> sp = sp'.
Proof.
  intros H H' C C'. pose proof (Kids_left' _ _ _ H) as [_ ?]. pose proof (Kids_right' _ _ _ H) as [_ ?].
  pose proof (Kids_left' _ _ _ H') as [_ ?]. pose proof (Kids_right' _ _ _ H') as [_ ?].
  destruct C as [[-> ->]|[-> ->]], C' as [[E1 E2]|[E1 E2]]; subst; try lia.
Qed.

Lemma Kids_bounds l sp r : Kids l sp r -> l <= sp < r /\ r <= m.
Proof. intros (? & (? & ?) & ?). lia. Qed.

Definition arrp (arr : nat -> nat -> Prop) l r : nat -> nat -> Prop := fun a b => arr a b \/ (a = l /\ b = r).

Lemma Holds_upd s s' t p q : st_pcs s !! t = Some p -> st_pcs s' = <[t:=q]> (st_pcs s) ->
  forall l r, Holds s' l r <-> held q = Some (l, r) \/ exists u pu, u <> t /\ st_pcs s !! u = Some pu /\ held pu = Some (l, r).
Proof.
  intros Hp E l r. pose proof (lookup_lt_Some _ _ _ Hp). split.
  - intros (u & pu & Hu & Hh). rewrite E in Hu. apply upd_inv in Hu as [(-> & -> & _)|(Hne & Hu)]; [auto|].
    right. eauto 10.
  - intros [Hq|(u & pu & Hne & Hu & Hh)].
    + exists t, q. rewrite E, list_lookup_insert by done. auto.
    + exists u, pu. rewrite E, list_lookup_insert_ne by done. auto.
Qed.

Lemma Looping_upd s s' t p q : st_pcs s !! t = Some p -> st_pcs s' = <[t:=q]> (st_pcs s) ->
  (forall x, p <> PLoop x) -> forall l r, Looping s l r -> Looping s' l r.
Proof.
  intros Hp E Hn l r (u & x & Hu & Hx). exists u, x. rewrite E.
  rewrite list_lookup_insert_ne; [auto|]. intros ->. rewrite Hp in Hu. injection Hu as ->. by apply (Hn x).
Qed.

(** Case: a thread initialises its leaf. *)
Lemma init_step s arr t : Inv s arr -> st_pcs s !! t = Some PInit ->
  exists s', step s t = Some s' /\ Inv s' arr /\ total s' < total s.
Proof.
  intros I Hp. pose proof (lookup_lt_Some _ _ _ Hp) as Ht. rewrite (i_pcs _ _ I) in Ht.
  destruct (lookup_lt_is_Some_2 perm t) as [o Ho]; [lia|].
  unfold TreeConstructionModel.step. rewrite Hp, Ho. simplo.
  rewrite wr_Some by (rewrite (i_leaves _ _ I); lia). simplo. eexists; split; [reflexivity|].
  change (delta (Z.of_nat t - 1)) with (e t). rewrite delta_e, rope_of_rope.
  set (x := {| th_i := t; th_l := t; th_r := t; th_dl := e t; th_dr := e (S t); th_bv := join bot (vol o) |}).
  set (s' := {| st_leaves := _; st_nodes := _; st_ranges := _; st_pcs := _ |}).
  assert (st_pcs s' = <[t:=PLoop x]> (st_pcs s)) as Es by done.
  assert (Nd t t) as HN by (apply Nd_leaf'; lia).
  assert (~ arr t t) as Hna.
  { intros Ha. destruct (i_arr _ _ I _ _ Ha) as (_ & _ & _ & _ & Hc). by apply Hc. }
  assert (~ Holds s t t) as Hnh.
  { intros Ha. destruct (i_held _ _ I _ _ Ha) as (_ & _ & Hc). by apply Hc. }
  assert (forall i, LeafOK s i -> LeafOK s' i) as HL.
  { intros i (o' & Ho' & Hl). exists o'. split; [done|]. simpl. rewrite list_lookup_insert_ne; [done|].
    intros ->. by apply (i_leaf1 _ _ I) in Hl. }
  assert (LeafOK s' t) as HLt.
  { exists o. split; [done|]. simpl. rewrite list_lookup_insert; [done|]. rewrite (i_leaves _ _ I). lia. }
  pose proof (Built_leaves s s' eq_refl HL) as HB.
  pose proof (Holds_upd _ s' _ _ (PLoop x) Hp Es) as HU.
  assert (forall l, st_pcs s !! l <> Some PInit -> st_pcs s' !! l <> Some PInit) as HPI.
  { intros l Hl Hc. rewrite Es in Hc. apply upd_inv in Hc as [(-> & ? & _)|(Hne & ?)]; done. }
  split.
  - constructor.
    + simpl. rewrite insert_length. apply I.
    + apply I.
    + apply I.
    + simpl. rewrite insert_length. apply I.
    + intros u p Hu. apply upd_inv in Hu as [(-> & -> & _)|(Hne & Hu)].
      * cbn [ThOK x th_l th_r th_i th_dl th_dr th_bv]. split; [exact HN|]. split; [lia|].
        split; [unfold TreeShapeProof.idx; by rewrite Nat.eqb_refl|]. split; [done|]. split; [done|].
        split; [by apply hull_leaf|]. split; [done|lia].
      * eapply ThOK_mono; [exact HB|]. by apply (i_th _ _ I u).
    + intros l r H. apply HU in H as [H|(u & pu & Hne & Hu & Hh)].
      * simpl in H. injection H as <- <-. repeat split; auto; try lia.
        intros _ Hc. rewrite Es in Hc. apply upd_inv in Hc as [(? & ? & _)|(? & ?)]; done.
      * destruct (i_held _ _ I l r) as (A & B & C); [by exists u, pu|]. split; [exact A|]. split; [exact B|]. intros El. apply HPI. by apply C.
    + intros t1 t2 p1 p2 y H1 H2 E1 E2.
      apply upd_inv in H1 as [(-> & -> & _)|(Hne1 & H1)], H2 as [(-> & -> & _)|(Hne2 & H2)]; try done.
      * exfalso. simpl in E1. injection E1 as <-. apply Hnh. by exists t2, p2.
      * exfalso. simpl in E2. injection E2 as <-. apply Hnh. by exists t1, p1.
      * by apply (i_uniq _ _ I t1 t2 p1 p2 y).
    + intros l r Ha. destruct (i_arr _ _ I _ _ Ha) as (A & B & C & D & F).
      split; [exact A|]. split; [exact B|]. split; [by apply HB|]. split; [exact D|]. intros El. apply HPI. by apply F.
    + apply I.
    + intros l sp r HK H1 H2. destruct (i_prod _ _ I _ _ _ HK H1 H2) as [A|[(u & pu & Hu & Hh)|(A & B & C)]].
      * by left.
      * right; left. apply HU. right. exists u, pu. repeat split; auto. intros ->. rewrite Hp in Hu. injection Hu as <-. done.
      * right; right. auto.
    + intros i p Hi Hne. apply upd_inv in Hi as [(-> & -> & _)|(Hne1 & Hi)].
      * right. apply HU. by left.
      * destruct (i_leaf _ _ I _ _ Hi Hne) as [A|(u & pu & Hu & Hh)]; [by left|right].
        apply HU. right. exists u, pu. repeat split; auto. intros ->. rewrite Hp in Hu. injection Hu as <-. done.
    + intros i y Hi. simpl in Hi. apply upd_inv in Hi as [(-> & ? & _)|(Hne1 & Hi)].
      * rewrite Es, list_lookup_insert; [done|]. rewrite (i_pcs _ _ I). lia.
      * apply HPI. by apply (i_leaf1 _ _ I _ y).
    + intros k nd Hk. destruct (i_once _ _ I _ _ Hk) as (l & r & A & B & C & D).
      exists l, r. split; [exact A|]. split; [exact B|]. split; [exact C|].
      destruct D as [D|[D|(-> & -> & D & F)]]; [by left| |].
      * right; left. eapply Looping_upd; eauto.
      * right; right. split; [done|]. split; [done|]. split; [exact D|].
        intros H. apply HU in H as [H|(u & pu & Hne & Hu & Hh)].
        -- simpl in H. injection H as E1 E2. lia.
        -- apply F. by exists u, pu.
  - unfold total. pose proof (sum_insert (st_pcs s) t PInit (PLoop x) Hp) as Hs. simpl in *. lia.
Qed.

(** Case: read the sibling's volume. *)
Lemma read_step s arr t x lc sl sb : Inv s arr -> st_pcs s !! t = Some (PRead x lc sl sb) ->
  exists s', step s t = Some s' /\ Inv s' arr /\ total s' < total s.
Proof.
  intros I Hp. pose proof (lookup_lt_Some _ _ _ Hp) as Ht. rewrite (i_pcs _ _ I) in Ht.
  pose proof (i_th _ _ I _ _ Hp) as (Hdl & Hdr & sp & HK & Hlc & Hsib).
  pose proof (Kids_bounds _ _ _ HK) as Hb.
  destruct (i_held _ _ I (th_l x) (th_r x)) as (Hna & Hkids & _); [by exists t, (PRead x lc sl sb)|].
  destruct (Hkids ltac:(lia) _ HK) as [Ha1 Ha2].
  assert (exists v, (if sl : bool then o ← st_leaves s !! sb; nd ← o; Some (vol (l_value nd))
           else o ← st_nodes s !! sb; nd ← o; Some (n_vol nd)) = Some v /\
     Hull (join (th_bv x) v) (th_l x) (th_r x)) as (v & Hv & Hj).
  { destruct Hsib as [(-> & -> & HH)|(-> & -> & HH)].
    - destruct (i_arr _ _ I _ _ Ha2) as (_ & _ & [BL BN] & _).
      destruct (Nat.eqb_spec (S sp) (th_r x)) as [E|E].
      + destruct (BL E) as (o & Ho & Hl). rewrite Hl. simplo. eexists; split; [reflexivity|].
        apply (hull_join _ _ _ sp); [lia|done|]. rewrite <- E. by apply hull_leaf'.
      + destruct BN as (sp' & nd & HK' & Hn & _ & _ & Hv); [lia|].
        rewrite (K_right' _ _ _ HK) in Hn. rewrite Hn. simplo. eexists; split; [reflexivity|].
        apply (hull_join _ _ _ sp); [lia|done|done].
    - destruct (i_arr _ _ I _ _ Ha1) as (_ & _ & [BL BN] & _).
      destruct (Nat.eqb_spec sp (th_l x)) as [E|E].
      + destruct (BL (eq_sym E)) as (o & Ho & Hl). rewrite E, Hl. simplo. eexists; split; [reflexivity|].
        apply (hull_join' _ _ _ sp); [lia| |done]. rewrite E. by apply hull_leaf'.
      + destruct BN as (sp' & nd & HK' & Hn & _ & _ & Hv); [lia|].
        rewrite (K_left' _ _ _ HK) in Hn. rewrite Hn. simplo. eexists; split; [reflexivity|].
        apply (hull_join' _ _ _ sp); [lia|done|done]. }
  unfold TreeConstructionModel.step. rewrite Hp. simplo. rewrite Hv. simplo. eexists; split; [reflexivity|].
  set (y := {| th_i := _; th_l := _; th_r := _; th_dl := _; th_dr := _; th_bv := join (th_bv x) v |}).
  set (s' := {| st_leaves := _; st_nodes := _; st_ranges := _; st_pcs := _ |}).
  assert (st_pcs s' = <[t:=PWrite y lc]> (st_pcs s)) as Es by done.
  assert (forall l r, Built s l r -> Built s' l r) as HB by done.
  assert (forall l r, Holds s' l r <-> Holds s l r) as HU.
  { intros l r. rewrite (Holds_upd s s' t _ _ Hp Es). split.
    - intros [H|(u & pu & _ & Hu & Hh)]; [exists t; eexists; split; [exact Hp|exact H]|by exists u, pu].
    - intros (u & pu & Hu & Hh). destruct (decide (u = t)) as [->|]; [|right; eauto 10].
      left. rewrite Hp in Hu. injection Hu as <-. exact Hh. }
  assert (forall l, st_pcs s !! l <> Some PInit -> st_pcs s' !! l <> Some PInit) as HPI.
  { intros l Hl Hc. rewrite Es in Hc. apply upd_inv in Hc as [(-> & ? & _)|(Hne & ?)]; done. }
  split.
  - constructor; try apply I.
    + simpl. rewrite insert_length. apply I.
    + intros u p Hu. apply upd_inv in Hu as [(-> & -> & _)|(Hne & Hu)].
      * cbn [ThOK y th_l th_r th_i th_dl th_dr th_bv]. eauto 10.
      * eapply ThOK_mono; [exact HB|]. by apply (i_th _ _ I u).
    + intros l r H. apply HU in H. destruct (i_held _ _ I l r H) as (A & B & C).
      split; [exact A|]. split; [exact B|]. intros El. apply HPI. by apply C.
    + intros t1 t2 p1 p2 z H1 H2 E1 E2.
      apply upd_inv in H1 as [(-> & -> & _)|(Hne1 & H1)], H2 as [(-> & -> & _)|(Hne2 & H2)]; try done.
      * by apply (i_uniq _ _ I t t2 _ p2 z Hp).
      * by apply (i_uniq _ _ I t1 t p1 _ z H1 Hp).
      * by apply (i_uniq _ _ I t1 t2 p1 p2 z).
    + intros l r Ha. destruct (i_arr _ _ I _ _ Ha) as (A & B & C & D & F).
      split; [exact A|]. split; [exact B|]. split; [by apply HB|]. split; [exact D|]. intros El. apply HPI. by apply F.
    + intros l sp' r HK' H1 H2. rewrite HU. by apply (i_prod _ _ I _ sp').
    + intros i p Hi Hne. rewrite HU. apply upd_inv in Hi as [(-> & -> & _)|(Hne1 & Hi)].
      * by apply (i_leaf _ _ I _ _ Hp).
      * by apply (i_leaf _ _ I _ _ Hi).
    + intros i z Hi. apply HPI. by apply (i_leaf1 _ _ I _ z).
    + intros k nd Hk. destruct (i_once _ _ I _ _ Hk) as (l & r & A & B & C & D).
      exists l, r. split; [exact A|]. split; [exact B|]. split; [exact C|].
      rewrite HU. destruct D as [D|[D|D]]; auto. right; left. eapply Looping_upd; eauto; done.
  - unfold total. pose proof (sum_insert (st_pcs s) t _ (PWrite y lc) Hp) as Hs. simpl in *. lia.
Qed.

(** Case: write the parent node. *)
Lemma write_step s arr t x lc : Inv s arr -> st_pcs s !! t = Some (PWrite x lc) ->
  st_nodes s !! K (th_l x) (th_r x) = Some None /\
  exists s', step s t = Some s' /\ Inv s' arr /\ total s' < total s.
Proof.
  intros I Hp. pose proof (lookup_lt_Some _ _ _ Hp) as Ht. rewrite (i_pcs _ _ I) in Ht.
  pose proof (i_th _ _ I _ _ Hp) as (Hdl & Hdr & sp & HK & Hlc & Hhull).
  pose proof (Kids_bounds _ _ _ HK) as Hb. pose proof (Kids_Nd _ _ _ HK) as HN.
  assert (Holds s (th_l x) (th_r x)) as HH by (by exists t, (PWrite x lc)).
  destruct (i_held _ _ I _ _ HH) as (Hna & Hkids & _).
  assert (K (th_l x) (th_r x) < m) as HKm by (apply K_lt'; auto; lia).
  destruct (lookup_lt_is_Some_2 (st_nodes s) (K (th_l x) (th_r x))) as [old Hold]; [by rewrite (i_nodes _ _ I)|].
  assert (old = None) as ->.
  { destruct old as [nd|]; [|done]. exfalso.
    destruct (i_once _ _ I _ _ Hold) as (l & r & A & B & C & D).
    destruct (K_inj' _ _ _ _ A B HN) as [-> ->]; [lia|done|].
    destruct D as [D|[(u & y & Hu & E1 & E2)|(E1 & E2 & _ & D)]]; [done| |].
    - assert (u = t) as ->. { eapply (i_uniq _ _ I u t _ _ (th_l x, th_r x) Hu Hp); simpl; [by rewrite E1, E2|done]. }
      by rewrite Hp in Hu.
    - apply D. by rewrite <- E1, <- E2 at 1. }
  split; [done|].
  unfold TreeConstructionModel.step. rewrite Hp. simplo. rewrite Hdl, Hdr.
  change (if (e (S (th_r x)) <? e (th_l x))%Z then th_r x else th_l x) with (K (th_l x) (th_r x)).
  rewrite wr_Some by (rewrite (i_nodes _ _ I); lia). simplo. rewrite rope_of_rope.
  eexists; split; [reflexivity|].
  set (y := {| th_i := _; th_l := _; th_r := _; th_dl := _; th_dr := _; th_bv := th_bv x |}).
  set (q := if _ =? _ then _ else _).
  set (s' := {| st_leaves := _; st_nodes := _; st_ranges := _; st_pcs := _ |}).
  assert (st_pcs s' = <[t:=q]> (st_pcs s)) as Es by done.
  assert (NodeOK s' (th_l x) (th_r x)) as HNew.
  { exists sp. eexists. split; [exact HK|]. split; [simpl; apply list_lookup_insert; by rewrite (i_nodes _ _ I)|]. done. }
  assert (forall l r, Built s l r -> Built s' l r) as HB.
  { apply Built_nodes; [done|]. intros l r Hok. pose proof Hok as (sp' & nd & HK' & Hn & E). exists sp', nd.
    split; [done|]. split; [|done]. simpl. rewrite list_lookup_insert_ne; [done|]. intros E'. rewrite E' in Hold. congruence. }
  assert (~ (th_l x = 0 /\ th_r x = m) -> q = PLoop y) as Hq1.
  { intros Hr. unfold q, internalIndex. destruct (Nat.eqb_spec (K (th_l x) (th_r x) + m + 1) (0 + m + 1)); [|done].
    exfalso. apply Hr. apply K_zero'; auto; lia. }
  assert ((th_l x = 0 /\ th_r x = m) -> q = PDone) as Hq2.
  { intros [E1 E2]. unfold q. rewrite E1, E2, K_root', Nat.eqb_refl. done. }
  clearbody q.
  assert (q <> PInit) as HqI.
  { destruct (decide (th_l x = 0 /\ th_r x = m)) as [Hr|Hr]; [by rewrite Hq2|by rewrite Hq1]. }
  assert (forall l r, ~ (l = 0 /\ r = m /\ th_l x = 0 /\ th_r x = m) -> Holds s' l r <-> Holds s l r) as HU.
  { intros l r Hlr. rewrite (Holds_upd s s' t _ _ Hp Es). split.
    - intros [H|(u & pu & _ & Hu & Hh)]; [|by exists u, pu].
      exists t; eexists; split; [exact Hp|].
      destruct (decide (th_l x = 0 /\ th_r x = m)) as [Hr|Hr]; [by rewrite Hq2 in H|by rewrite Hq1 in H].
    - intros (u & pu & Hu & Hh). destruct (decide (u = t)) as [->|]; [|right; eauto 10].
      left. rewrite Hp in Hu. injection Hu as <-. simpl in Hh. injection Hh as <- <-. rewrite Hq1; [done|]. intros [? ?]. by apply Hlr. }
  assert (forall l r, Holds s' l r -> Holds s l r) as HU1.
  { intros l r. rewrite (Holds_upd s s' t _ _ Hp Es).
    intros [H|(u & pu & _ & Hu & Hh)]; [|by exists u, pu].
    exists t; eexists; split; [exact Hp|].
    destruct (decide (th_l x = 0 /\ th_r x = m)) as [Hr|Hr]; [by rewrite Hq2 in H|by rewrite Hq1 in H]. }
  assert (forall l, st_pcs s !! l <> Some PInit -> st_pcs s' !! l <> Some PInit) as HPI.
  { intros l Hl Hc. rewrite Es in Hc. apply upd_inv in Hc as [(-> & ? & _)|(Hne & ?)]; done. }
  split.
  - constructor; try apply I.
    + simpl. rewrite insert_length. apply I.
    + simpl. rewrite insert_length. apply I.
    + intros u p Hu. apply upd_inv in Hu as [(-> & -> & _)|(Hne & Hu)].
      * destruct (decide (th_l x = 0 /\ th_r x = m)) as [Hr|Hr]; [by rewrite Hq2|rewrite Hq1 by done].
        cbn [ThOK y th_l th_r th_i th_dl th_dr th_bv].
        split; [exact HN|]. split; [exact Hr|]. split.
        { unfold TreeShapeProof.idx, internalIndex. destruct (Nat.eqb_spec (th_l x) (th_r x)); [lia|done]. }
        split; [done|]. split; [done|]. split; [done|]. split; [lia|done].
      * eapply ThOK_mono; [exact HB|]. by apply (i_th _ _ I u).
    + intros l r H. apply HU1 in H. destruct (i_held _ _ I l r H) as (A & B & C).
      split; [exact A|]. split; [exact B|]. intros El. apply HPI. by apply C.
    + intros t1 t2 p1 p2 z H1 H2 E1 E2.
      assert (held q = Some z -> held (PWrite x lc) = Some z) as Hhq.
      { destruct (decide (th_l x = 0 /\ th_r x = m)) as [Hr|Hr]; [by rewrite Hq2|by rewrite Hq1]. }
      apply upd_inv in H1 as [(-> & -> & _)|(Hne1 & H1)], H2 as [(-> & -> & _)|(Hne2 & H2)]; try done.
      * apply (i_uniq _ _ I t t2 _ p2 z Hp); auto.
      * apply (i_uniq _ _ I t1 t p1 _ z H1 Hp); auto.
      * by apply (i_uniq _ _ I t1 t2 p1 p2 z).
    + intros l r Ha. destruct (i_arr _ _ I _ _ Ha) as (A & B & C & D & F).
      split; [exact A|]. split; [exact B|]. split; [by apply HB|]. split; [exact D|]. intros El. apply HPI. by apply F.
    + intros l sp' r HK' H1 H2. destruct (i_prod _ _ I _ _ _ HK' H1 H2) as [A|[A|(A & B & C)]].
      * by left.
      * destruct (decide (l = 0 /\ r = m /\ th_l x = 0 /\ th_r x = m)) as [(-> & -> & E1 & E2)|Hr];
          [|right; left; by apply HU].
        right; right. split; [done|]. split; [done|].
        rewrite E1, E2 in HNew. split; [lia|done].
      * right; right. auto.
    + intros i p Hi Hne. rewrite HU by lia. apply upd_inv in Hi as [(-> & -> & _)|(Hne1 & Hi)].
      * by apply (i_leaf _ _ I _ _ Hp).
      * by apply (i_leaf _ _ I _ _ Hi).
    + intros i z Hi. apply HPI. by apply (i_leaf1 _ _ I _ z).
    + intros k nd Hk. simpl in Hk. apply upd_inv in Hk as [(-> & _ & _)|(Hne1 & Hk)].
      * exists (th_l x), (th_r x). split; [exact HN|]. split; [lia|]. split; [done|].
        right. destruct (decide (th_l x = 0 /\ th_r x = m)) as [Hr|Hr].
        -- right. destruct Hr as [E1 E2]. split; [done|]. split; [done|]. rewrite E1, E2 in Hkids. split; [apply Hkids; lia|].
           rewrite (Holds_upd s s' t _ _ Hp Es). rewrite Hq2 by done. intros [?|(u & pu & Hu1 & Hu2 & Hu3)]; [done|].
           apply Hu1. apply (i_uniq _ _ I u t pu _ (0, m) Hu2 Hp Hu3). simpl. by rewrite E1, E2.
        -- left. exists t, y. rewrite Es, list_lookup_insert by (rewrite (i_pcs _ _ I); lia). by rewrite Hq1.
      * destruct (i_once _ _ I _ _ Hk) as (l & r & A & B & C & D).
        exists l, r. split; [exact A|]. split; [exact B|]. split; [exact C|].
        destruct D as [D|[D|(-> & -> & D & F)]]; [by left| |].
        -- right; left. eapply Looping_upd; eauto; done.
        -- right; right. split; [done|]. split; [done|]. split; [exact D|]. intros H. by apply F, HU1.
  - unfold total. pose proof (sum_insert (st_pcs s) t _ q Hp) as Hs.
    assert (weight q < weight (PWrite x lc)).
    { destruct (decide (th_l x = 0 /\ th_r x = m)) as [Hr|Hr]; [rewrite Hq2 by done|rewrite Hq1 by done]; simpl; lia. }
    simpl in *. lia.
Qed.

(** Case: a thread arrives at the parent of its node. *)
Lemma arrive s arr t x L sp R q ranges' (arr' := arrp arr (th_l x) (th_r x)) :
  Inv s arr -> st_pcs s !! t = Some (PLoop x) -> Kids L sp R ->
  ((th_l x = L /\ th_r x = sp) \/ (th_l x = S sp /\ th_r x = R)) ->
  q <> PInit -> ThOK s q ->
  length ranges' = m -> (forall sp', sp' <> sp -> ranges' !! sp' = st_ranges s !! sp') ->
  (exists v, ranges' !! sp = Some (Some v) /\ ((arr' L sp /\ v = L) \/ (arr' (S sp) R /\ v = R))) ->
  ((held q = None /\ ~ (arr' L sp /\ arr' (S sp) R)) \/ (held q = Some (L, R) /\ arr' L sp /\ arr' (S sp) R)) ->
  Inv {| st_leaves := st_leaves s; st_nodes := st_nodes s; st_ranges := ranges'; st_pcs := <[t:=q]> (st_pcs s) |} arr'.
Proof.
  intros I Hp HK Hch HqI Hqok Hlen Hoth Hsp Hq.
  pose proof (lookup_lt_Some _ _ _ Hp) as Ht. rewrite (i_pcs _ _ I) in Ht.
  pose proof (i_th _ _ I _ _ Hp) as (HN & Hroot & Hi & Hdl & Hdr & Hhull & Hbuilt).
  pose proof (Kids_bounds _ _ _ HK) as Hb.
  assert (Holds s (th_l x) (th_r x)) as HH by (by exists t, (PLoop x)).
  destruct (i_held _ _ I _ _ HH) as (Hna & Hkids & Hleaf).
  assert (forall u pu, u <> t -> st_pcs s !! u = Some pu -> held pu <> Some (th_l x, th_r x)) as Hoh.
  { intros u pu Hne Hu Hh. apply Hne. by apply (i_uniq _ _ I u t pu _ _ Hu Hp Hh). }
  assert (~ (arr L sp /\ arr (S sp) R)) as Hnb.
  { intros [A B]. apply Hna. destruct Hch as [[-> ->]|[-> ->]]; done. }
  assert (~ Holds s L R) as HnLR.
  { intros H. destruct (i_held _ _ I _ _ H) as (_ & H' & _). apply Hnb, H'; [lia|done]. }
  assert (~ arr L R) as HnLR'.
  { intros H. destruct (i_arr _ _ I _ _ H) as (_ & _ & _ & H' & _). apply Hnb, H'; [lia|done]. }
  set (s' := {| st_leaves := _; st_nodes := _; st_ranges := _; st_pcs := _ |}).
  assert (st_pcs s' = <[t:=q]> (st_pcs s)) as Es by done.
  pose proof (Holds_upd s s' t _ _ Hp Es) as HU.
  assert (forall l r, Holds s l r -> Holds s' l r \/ (l = th_l x /\ r = th_r x)) as HU2.
  { intros l r (u & pu & Hu & Hh). destruct (decide (u = t)) as [->|].
    - rewrite Hp in Hu. injection Hu as <-. simpl in Hh. injection Hh as <- <-. auto.
    - left. apply HU. right. eauto 10. }
  assert (forall l, st_pcs s !! l <> Some PInit -> st_pcs s' !! l <> Some PInit) as HPI.
  { intros l Hl Hc. rewrite Es in Hc. apply upd_inv in Hc as [(-> & ? & _)|(Hne & ?)]; done. }
  assert (forall l r, Built s l r -> Built s' l r) as HB by done.
  assert (forall a b, arr a b -> arr' a b) as Ham by (unfold arr', arrp; auto).
  constructor; try apply I.
  - done.
  - simpl. rewrite insert_length. apply I.
  - intros u p Hu. apply upd_inv in Hu as [(-> & -> & _)|(Hne & Hu)].
    + eapply ThOK_mono; [exact HB|exact Hqok].
    + eapply ThOK_mono; [exact HB|]. by apply (i_th _ _ I u).
  - intros l r H. apply HU in H as [H|(u & pu & Hne & Hu & Hh)].
    + destruct Hq as [[E _]|(E & E1 & E2)]; [congruence|]. rewrite E in H. injection H as <- <-.
      split; [|split; [|lia]].
      * intros [Hc|[Ha Hb']]; [done|]. lia.
      * intros _ sp' HK'. rewrite (Kids_split' _ _ _ _ HK' HK). auto.
    + destruct (i_held _ _ I l r) as (A & B & C); [by exists u, pu|].
      split; [|split].
      * intros [Hc|[Ha Hb']]; [done|]. subst. by apply (Hoh u pu).
      * intros Hlr sp' HK'. destruct (B Hlr sp' HK'). auto.
      * intros El. apply HPI. by apply C.
  - intros t1 t2 p1 p2 z H1 H2 E1 E2.
    apply upd_inv in H1 as [(-> & -> & _)|(Hne1 & H1)], H2 as [(-> & -> & _)|(Hne2 & H2)]; try done.
    + exfalso. destruct Hq as [[E _]|(E & _)]; [congruence|]. rewrite E in E1. injection E1 as <-.
      apply HnLR. by exists t2, p2.
    + exfalso. destruct Hq as [[E _]|(E & _)]; [congruence|]. rewrite E in E2. injection E2 as <-.
      apply HnLR. by exists t1, p1.
    + by apply (i_uniq _ _ I t1 t2 p1 p2 z).
  - intros l r [Ha|[-> ->]].
    + destruct (i_arr _ _ I _ _ Ha) as (A & B & C & D & F).
      split; [exact A|]. split; [exact B|]. split; [by apply HB|].
      split; [intros Hlr sp' HK'; destruct (D Hlr sp' HK'); auto|]. intros El. apply HPI. by apply F.
    + split; [exact HN|]. split; [exact Hroot|]. split; [by apply HB|].
      split; [intros Hlr sp' HK'; destruct (Hkids Hlr sp' HK'); auto|]. intros El. apply HPI. by apply Hleaf.
  - intros L' sp' R' HK'. destruct (decide (sp' = sp)) as [->|Hne].
    + destruct (Kids_range' _ _ _ _ _ HK HK') as [<- <-]. destruct Hsp as (v & Hv & Hd). exists (Some v). auto.
    + destruct (i_range _ _ I _ _ _ HK') as (o & Ho & Hd). exists o. split; [simpl; by rewrite Hoth|].
      destruct o as [v|].
      * destruct Hd as [[A B]|[A B]]; [left|right]; auto.
      * destruct Hd as [A B]. split; intros [C|[C1 C2]]; try done; apply Hne; symmetry;
          apply (child_unique _ _ _ _ _ _ (th_l x) (th_r x) HK HK' Hch); auto.
  - intros L' sp' R' HK' H1 H2. destruct (decide (sp' = sp)) as [->|Hne].
    + destruct (Kids_range' _ _ _ _ _ HK HK') as [<- <-].
      destruct Hq as [[_ E]|(E & _ & _)]; [by destruct E|]. right; left. apply HU. by left.
    + assert (arr L' sp') as H1'.
      { destruct H1 as [H1|[C1 C2]]; [done|]. exfalso. apply Hne. symmetry.
        apply (child_unique _ _ _ _ _ _ (th_l x) (th_r x) HK HK' Hch); auto. }
      assert (arr (S sp') R') as H2'.
      { destruct H2 as [H2|[C1 C2]]; [done|]. exfalso. apply Hne. symmetry.
        apply (child_unique _ _ _ _ _ _ (th_l x) (th_r x) HK HK' Hch); auto. }
      destruct (i_prod _ _ I _ _ _ HK' H1' H2') as [A|[A|(A & B & C)]].
      * left; auto.
      * destruct (HU2 _ _ A) as [?|[-> ->]]; [auto|]. left. right. auto.
      * right; right. auto.
  - intros i p Hi' Hne. apply upd_inv in Hi' as [(-> & -> & _)|(Hne1 & Hi')].
    + destruct (i_leaf _ _ I _ _ Hp) as [A|A]; [done|left; auto|].
      destruct (HU2 _ _ A) as [?|[E1 E2]]; [auto|]. left. right. auto.
    + destruct (i_leaf _ _ I _ _ Hi' Hne) as [A|A]; [left; auto|].
      destruct (HU2 _ _ A) as [?|[E1 E2]]; [auto|]. left. right. auto.
  - intros i z Hi'. apply HPI. by apply (i_leaf1 _ _ I _ z).
  - intros k nd Hk. destruct (i_once _ _ I _ _ Hk) as (l & r & A & B & C & D).
    exists l, r. split; [exact A|]. split; [exact B|]. split; [exact C|].
    destruct D as [D|[(u & y & Hu & E1 & E2)|(-> & -> & D & F)]]; [left; auto| |].
    + destruct (decide (u = t)) as [->|Hne].
      * rewrite Hp in Hu. injection Hu as <-. left. right. auto.
      * right; left. exists u, y. rewrite Es, list_lookup_insert_ne by done. auto.
    + right; right. split; [done|]. split; [done|].
      split; [intros sp' HK'; destruct (D sp' HK'); auto|].
      intros H. apply HU in H as [H|(u & pu & Hne & Hu & Hh)].
      * destruct Hq as [[E _]|(E & E1 & E2)]; [congruence|]. rewrite E in H. injection H as -> ->.
        apply Hnb, D, HK.
      * apply F. by exists u, pu.
Qed.

Lemma loop_step s arr t x : Inv s arr -> st_pcs s !! t = Some (PLoop x) ->
  exists s' arr', step s t = Some s' /\ Inv s' arr' /\ total s' < total s.
Proof.
  intros I Hp.
  pose proof (i_th _ _ I _ _ Hp) as (HN & Hroot & Hi & Hdl & Hdr & Hhull & Hbuilt).
  assert (Holds s (th_l x) (th_r x)) as HH by (by exists t, (PLoop x)).
  destruct (i_held _ _ I _ _ HH) as (Hna & Hkids & Hleaf).
  unfold TreeConstructionModel.step. rewrite Hp. simplo. rewrite Hdl, Hdr.
  set (arr' := arrp arr (th_l x) (th_r x)).
  assert (forall ranges' q, weight q < weight (PLoop x) ->
    total {| st_leaves := st_leaves s; st_nodes := st_nodes s; st_ranges := ranges'; st_pcs := <[t:=q]> (st_pcs s) |} < total s) as HT.
  { intros ranges' q Hw. unfold total. pose proof (sum_insert (st_pcs s) t _ q Hp). simpl in *. lia. }
  destruct (Z.ltb_spec (e (S (th_r x))) (e (th_l x))) as [Hlt|Hge].
  - destruct (Nd_parent_left' _ _ HN Hlt) as (R & HK). pose proof (Kids_bounds _ _ _ HK) as Hb.
    destruct (i_range _ _ I _ _ _ HK) as (o & Ho & Hd). rewrite Ho. simplo.
    destruct o as [v|].
    + destruct Hd as [[A _]|[A ->]]; [done|].
      eexists _, arr'. split; [reflexivity|]. split; [|apply HT; simpl; lia].
      eapply arrive; eauto; try done.
      * cbn [ThOK th_l th_r th_i th_dl th_dr th_bv]. split; [done|]. split; [apply delta_e|].
        exists (th_r x). split; [done|]. split; [done|]. left. split; [lia|]. split; [by rewrite Nat.add_1_r|done].
      * apply I.
      * exists R. split; [done|]. right. split; [by left|done].
      * right. split; [done|]. split; [by right|by left].
    + destruct Hd as [_ Hns].
      rewrite wr_Some by (rewrite (i_ranges _ _ I); lia). simplo.
      eexists _, arr'. split; [reflexivity|]. split; [|apply HT; simpl; lia].
      eapply arrive; eauto; try done.
      * rewrite insert_length. apply I.
      * intros sp' Hne. by rewrite list_lookup_insert_ne.
      * exists (th_l x). split; [apply list_lookup_insert; rewrite (i_ranges _ _ I); lia|]. left. split; [by right|done].
      * left. split; [done|]. intros [_ [?|[? ?]]]; [done|lia].
  - destruct (Nd_parent_right' _ _ HN Hroot) as (Hl0 & Hlt & L & HK); [lia|]. pose proof (Kids_bounds _ _ _ HK) as Hb.
    destruct (Nat.eqb_spec (th_l x) 0); [lia|].
    assert (S (th_l x - 1) = th_l x) as ES by lia.
    destruct (i_range _ _ I _ _ _ HK) as (o & Ho & Hd). rewrite Ho. simplo.
    rewrite ES in Hd.
    destruct o as [v|].
    + destruct Hd as [[A ->]|[A _]]; [|done].
      eexists _, arr'. split; [reflexivity|]. split; [|apply HT; simpl; lia].
      eapply arrive; eauto; try done.
      * cbn [ThOK th_l th_r th_i th_dl th_dr th_bv]. split; [done|]. split; [done|].
        exists (th_l x - 1). split; [done|]. split.
        { unfold TreeShapeProof.idx. rewrite (K_left' _ _ _ HK). unfold internalIndex.
          destruct (Nat.eqb_spec (th_l x - 1) L), (Nat.eqb_spec L (th_l x - 1)); try lia. }
        right. split; [done|]. split; [done|]. by rewrite ES.
      * apply I.
      * exists L. split; [done|]. left. split; [by left|done].
      * right. split; [done|]. split; [by left|right; lia].
    + destruct Hd as [Hns _].
      rewrite wr_Some by (rewrite (i_ranges _ _ I); lia). simplo.
      eexists _, arr'. split; [reflexivity|]. split; [|apply HT; simpl; lia].
      eapply arrive; eauto; try done.
      * rewrite insert_length. apply I.
      * intros sp' Hne. by rewrite list_lookup_insert_ne.
      * exists (th_r x). split; [apply list_lookup_insert; rewrite (i_ranges _ _ I); lia|]. right. split; [right; lia|done].
      * left. split; [done|]. intros [[?|[? ?]] _]; [done|lia].
Qed.

Lemma any_step s arr t p : Inv s arr -> st_pcs s !! t = Some p -> p <> PDone ->
  exists s' arr', step s t = Some s' /\ Inv s' arr' /\ total s' < total s.
Proof.
  intros I Hp Hne. destruct p as [|x|x lc sl sb|x lc|]; [| | | |done].
  - destruct (init_step s arr t I Hp) as (s' & ?). by exists s', arr.
  - by apply (loop_step s arr t x).
  - destruct (read_step s arr t x lc sl sb I Hp) as (s' & ?). by exists s', arr.
  - destruct (write_step s arr t x lc I Hp) as (_ & s' & ?). by exists s', arr.
Qed.

Lemma step_pc s t s' : step s t = Some s' -> exists p, st_pcs s !! t = Some p /\ p <> PDone.
Proof.
  unfold TreeConstructionModel.step. destruct (st_pcs s !! t) as [p|] eqn:E; [|done]. simplo. intros H.
  exists p. split; [done|]. by intros ->.
Qed.

Lemma exec_inv s arr ts s' : Inv s arr -> exec s ts s' -> (exists arr', Inv s' arr') /\ total s' + length ts <= total s.
Proof.
  intros I H. revert arr I. induction H as [s|s t s1 ts s2 H1 H2 IH]; intros arr I; [simpl; split; [eauto|lia]|].
  destruct (step_pc _ _ _ H1) as (p & Hp & Hne).
  destruct (any_step s arr t p I Hp Hne) as (s1' & arr' & E & I' & Ht). rewrite H1 in E. injection E as <-.
  destruct (IH _ I'). split; [done|]. simpl. lia.
Qed.

(** The finished memory. *)
Definition Final (s : state V) : Prop :=
  length (st_leaves s) = S m /\ length (st_nodes s) = m /\ forall l r, Nd l r -> Built s l r.

Lemma done_final s arr : Inv s arr -> all_done s -> Final s.
Proof.
  intros I HD.
  assert (forall l r, ~ Holds s l r) as HH.
  { intros l r (t & p & Hp & Hh). rewrite (HD t p Hp) in Hh. done. }
  assert (forall d l r, r - l < d -> Nd l r -> Built s l r /\ (~ (l = 0 /\ r = m) -> arr l r)) as Hall.
  { induction d as [|d IH]; intros l r Hd HN; [lia|].
    pose proof HN as [Hlr _].
    destruct (decide (l = r)) as [<-|].
    - destruct (lookup_lt_is_Some_2 (st_pcs s) l) as [p Hp]; [rewrite (i_pcs _ _ I); lia|].
      destruct (i_leaf _ _ I l p Hp) as [A|A]; [by rewrite (HD l p Hp)| |by apply HH in A].
      destruct (i_arr _ _ I _ _ A) as (_ & _ & ? & _). auto.
    - destruct (Nd_split' l r HN) as (sp & HK); [lia|]. pose proof (Kids_bounds _ _ _ HK).
      destruct (Kids_left' _ _ _ HK) as [N1 _]. destruct (Kids_right' _ _ _ HK) as [N2 _].
      destruct (IH l sp) as [_ A1]; [lia|done|]. destruct (IH (S sp) r) as [_ A2]; [lia|done|].
      destruct (i_prod _ _ I _ _ _ HK) as [A|[A|(-> & -> & A)]]; [apply A1; lia|apply A2; lia| |by apply HH in A|].
      + destruct (i_arr _ _ I _ _ A) as (_ & _ & ? & _). auto.
      + split; [done|]. intros []. done. }
  split; [apply I|]. split; [apply I|]. intros l r HN. by apply (Hall (S (r - l))); [lia|].
Qed.

Lemma final_tree s : Final s -> exists T, tree_of m s = Some T.
Proof.
  intros (H1 & H2 & H3). unfold tree_of.
  destruct (mapM_id_Some (st_leaves s)) as [ls Hls].
  { intros i Hi. destruct (H3 i i) as [B _]; [apply Nd_leaf'; lia|]. destruct (B eq_refl) as (o & _ & ?). eauto. }
  destruct (mapM_id_Some (st_nodes s)) as [ns Hns].
  { intros k Hk. destruct (K_surj' k) as (l & r & HN & Hlr & <-); [lia|].
    destruct (H3 l r HN) as [_ B]. destruct (B Hlr) as (? & nd & _ & ? & _). eauto. }
  rewrite Hls, Hns. simplo. eauto.
Qed.

Lemma tree_of_inv (s : state V) (T : tree V) : tree_of m s = Some T -> t_size T = S m /\
  (forall i, st_leaves s !! i = Some <$> (t_leaves T !! i)) /\ (forall i, st_nodes s !! i = Some <$> (t_nodes T !! i)) /\
  length (t_leaves T) = length (st_leaves s) /\ length (t_nodes T) = length (st_nodes s).
Proof.
  unfold tree_of. destruct (mapM id (st_leaves s)) as [ls|] eqn:E1; [|done].
  destruct (mapM id (st_nodes s)) as [ns|] eqn:E2; [|done]. simplo. intros H. injection H as <-. simpl.
  split; [done|]. split; [by apply mapM_id_lookup|]. split; [by apply mapM_id_lookup|].
  split; symmetry; eapply mapM_length; eauto.
Qed.

Lemma final_covers s T : Final s -> tree_of m s = Some T ->
  forall l r, Nd l r -> Covers T (idx l r) l r (rope r).
Proof.
  intros (H1 & H2 & H3) HT. destruct (tree_of_inv _ _ HT) as (Hsz & HL & HNo & _).
  assert (forall d l r, r - l < d -> Nd l r -> Covers T (idx l r) l r (rope r)) as Hall.
  { induction d as [|d IH]; intros l r Hd HN; [lia|]. pose proof HN as [Hlr _].
    destruct (H3 l r HN) as [BL BN]. unfold TreeShapeProof.idx at 1.
    destruct (Nat.eqb_spec l r) as [<-|].
    - destruct (BL eq_refl) as (o & Ho & Hl). rewrite HL in Hl.
      destruct (t_leaves T !! l) as [nd|] eqn:E; [|done]. simpl in Hl. injection Hl as ->.
      econstructor; [lia|exact E|done].
    - destruct BN as (sp & nd & HK & Hn & Hleft & Hrope & _); [lia|]. pose proof (Kids_bounds _ _ _ HK).
      rewrite HNo in Hn. destruct (t_nodes T !! K l r) as [nd'|] eqn:E; [|done]. simpl in Hn. injection Hn as ->.
      destruct (Kids_left' _ _ _ HK) as [N1 _]. destruct (Kids_right' _ _ _ HK) as [N2 _].
      eapply (cov_node _ _ _ sp _ _ (idx (S sp) r) nd); [lia| |done|lia| |].
      + rewrite Hsz. replace (K l r + m + 1 - S m) with (K l r) by lia. done.
      + rewrite Hleft, <- (rope_left' _ _ _ HK). apply IH; [lia|done].
      + apply IH; [lia|done]. }
  intros l r. apply (Hall (S (r - l))). lia.
Qed.

Lemma final_valid s T : Final s -> tree_of m s = Some T -> ValidTree le vol perm T.
Proof.
  intros HF HT. pose proof (final_covers s T HF HT) as HC. pose proof HF as (H1 & H2 & H3).
  destruct (tree_of_inv _ _ HT) as (Hsz & HL & HNo & Hl1 & Hl2).
  assert (forall k, k < m -> exists l r, Nd l r /\ l < r /\ idx l r = k + S m /\ K l r = k) as Hk.
  { intros k Hk. destruct (K_surj' k Hk) as (l & r & HN & Hlr & E). exists l, r. split; [done|]. split; [done|].
    split; [|done]. unfold TreeShapeProof.idx. destruct (Nat.eqb_spec l r); lia. }
  constructor.
  - lia.
  - lia.
  - lia.
  - intros i. unfold getValue. destruct (decide (i <= m)).
    + destruct (H3 i i) as [B _]; [apply Nd_leaf'; lia|]. destruct (B eq_refl) as (o & Ho & Hl).
      rewrite HL in Hl. destruct (t_leaves T !! i) as [nd|]; [|done]. simpl in Hl. injection Hl as ->. done.
    + rewrite !lookup_ge_None_2; [done|lia|lia].
  - unfold getRoot. rewrite Hsz, perm_len. replace (S m - 1) with m by lia.
    pose proof (HC 0 m Nd_root') as HR. unfold TreeShapeProof.idx in HR. rewrite K_root', rope_root in HR.
    destruct (Nat.eqb_spec 0 m); [lia|]. by replace (0 + m + 1) with (S m) in HR by lia.
  - intros i Hi. rewrite perm_len in Hi. destruct (decide (i <= m)).
    + exists i, i. eexists. pose proof (HC i i (Nd_leaf' i ltac:(lia))) as H. unfold TreeShapeProof.idx in H.
      rewrite Nat.eqb_refl in H. exact H.
    + destruct (Hk (i - S m)) as (l & r & HN & Hlr & E & _); [lia|]. exists l, r. eexists.
      pose proof (HC l r HN) as H. rewrite E in H. replace (i - S m + S m) with i in H by lia. exact H.
  - intros i l r rp Hc Hlr.
    assert (S m <= i < 2 * m + 1) as Hi.
    { inversion Hc as [|? ? ? ? ? ? nd G1 G2]; subst; [lia|]. apply lookup_lt_Some in G2. lia. }
    destruct (Hk (i - S m)) as (l0 & r0 & HN & Hlr0 & E & E'); [lia|].
    pose proof (HC l0 r0 HN) as H. rewrite E in H. replace (i - S m + S m) with i in H by lia.
    destruct (Covers_det _ _ _ _ _ H _ _ _ Hc) as (-> & -> & _).
    destruct (H3 l r HN) as [_ B]. destruct (B Hlr) as (sp & nd & _ & Hn & _ & _ & Hv).
    exists (n_vol nd). split; [|done]. unfold getVolume. rewrite Hsz, <- E'.
    rewrite HNo in Hn. destruct (t_nodes T !! K l r) as [nd'|]; [|done]. simpl in *. congruence.
Qed.

(** Two finished executions agree. *)
Notation SameTree := (TreeSpec.SameTree le).

Lemma hull_le a b l r : Hull a l r -> Hull b l r -> le a b.
Proof. intros [A1 A2] [B1 B2]. by apply A2. Qed.

Lemma final_same s s' T T' : Final s -> Final s' -> tree_of m s = Some T -> tree_of m s' = Some T' -> SameTree T T'.
Proof.
  intros HF HF' HT HT'. destruct HF as (H1 & H2 & H3), HF' as (H1' & H2' & H3').
  destruct (tree_of_inv _ _ HT) as (Hsz & HL & HNo & Hl1 & Hl2).
  destruct (tree_of_inv _ _ HT') as (Hsz' & HL' & HNo' & Hl1' & Hl2').
  split; [lia|]. split; [|split; [lia|]].
  - apply list_eq. intros i. destruct (decide (i <= m)).
    + destruct (H3 i i) as [B _]; [apply Nd_leaf'; lia|]. destruct (B eq_refl) as (o & Ho & Hl).
      destruct (H3' i i) as [B' _]; [apply Nd_leaf'; lia|]. destruct (B' eq_refl) as (o' & Ho' & Hl').
      assert (o' = o) as -> by congruence.
      rewrite HL in Hl. rewrite HL' in Hl'.
      destruct (t_leaves T !! i), (t_leaves T' !! i); simpl in *; congruence.
    + rewrite !lookup_ge_None_2; [done|lia|lia].
  - intros k nd nd' Hn Hn'. pose proof (lookup_lt_Some _ _ _ Hn).
    destruct (K_surj' k) as (l & r & HN & Hlr & <-); [lia|].
    destruct (H3 l r HN) as [_ B]. destruct (B Hlr) as (sp & x & HK & Hx & E1 & E2 & Hv).
    destruct (H3' l r HN) as [_ B']. destruct (B' Hlr) as (sp' & x' & HK' & Hx' & E1' & E2' & Hv').
    rewrite HNo, Hn in Hx. rewrite HNo', Hn' in Hx'. simpl in Hx, Hx'. injection Hx as <-. injection Hx' as <-.
    rewrite (Kids_split' _ _ _ _ HK' HK) in E1'.
    split; [congruence|]. split; [congruence|]. split; by eapply hull_le.
Qed.

(** Every node is split where the strength is largest. *)
Lemma final_split s T : Final s -> tree_of m s = Some T -> forall i l sp r rp c1 c2 rp1 rp2,
  Covers T i l r rp -> getLeftChild T i = Some c1 -> Covers T c1 l sp rp1 -> Covers T c2 (S sp) r rp2 -> l < r ->
  forall k, l <= k < r -> k <> sp -> (delta (Z.of_nat k) < delta (Z.of_nat sp))%Z.
Proof.
  intros HF HT i l sp r rp c1 c2 rp1 rp2 Hc HL C1 C2 Hlr k Hk Hne.
  pose proof (final_covers s T HF HT) as HC. pose proof HF as (H1 & H2 & H3).
  destruct (tree_of_inv _ _ HT) as (Hsz & HLf & HNo & Hl1 & Hl2).
  assert (S m <= i < 2 * m + 1) as Hi.
  { inversion Hc as [|? ? ? ? ? ? nd G1 G2]; subst; [lia|]. apply lookup_lt_Some in G2. lia. }
  destruct (K_surj' (i - S m)) as (l0 & r0 & HN & Hlr0 & E); [lia|].
  pose proof (HC l0 r0 HN) as H. unfold TreeShapeProof.idx in H. destruct (Nat.eqb_spec l0 r0); [lia|].
  rewrite E in H. replace (i - S m + m + 1) with i in H by lia.
  destruct (Covers_det _ _ _ _ _ H _ _ _ Hc) as (-> & -> & _).
  destruct (H3 l r HN) as [_ B]. destruct (B Hlr) as (sp' & nd & HK & Hn & Hleft & _ & _).
  rewrite HNo, E in Hn. destruct (t_nodes T !! (i - S m)) as [nd'|] eqn:En; [|done]. simpl in Hn. injection Hn as ->.
  unfold getLeftChild, isLeaf in HL. destruct (Nat.ltb_spec i (t_size T)); [done|]. rewrite Hsz, En in HL. simpl in HL. injection HL as <-.
  destruct (Kids_left' _ _ _ HK) as [N1 _]. pose proof (HC _ _ N1) as C1'. rewrite <- Hleft in C1'.
  destruct (Covers_det _ _ _ _ _ C1' _ _ _ C1) as (_ & -> & _).
  destruct HK as (_ & _ & HKm). rewrite !delta_e. apply HKm; lia.
Qed.

(** The statements used by the properties file. *)
Notation init := (init_state m).

Lemma total_init : total (@init_state V m) = (m + 1) * (3 * m + 2).
Proof.
  unfold total. cbn [init_state st_pcs].
  assert (forall k, sum_list_with weight (replicate k (@PInit V)) = k * (3 * m + 2)) as H.
  { induction k as [|k IH]; [done|]. cbn [replicate sum_list_with]. rewrite IH. cbn [weight]. lia. }
  rewrite H. lia.
Qed.

Lemma construction_progress ts s t p : exec init ts s -> st_pcs s !! t = Some p -> p <> PDone ->
  exists s', step s t = Some s'.
Proof.
  intros He Hp Hne. destruct (exec_inv _ _ _ _ init_inv He) as [[arr I] _].
  destruct (any_step s arr t p I Hp Hne) as (s' & _ & ? & _). eauto.
Qed.

Lemma construction_bounded ts s : exec init ts s -> length ts <= (m + 1) * (3 * m + 2).
Proof. intros He. destruct (exec_inv _ _ _ _ init_inv He) as [_ H]. rewrite total_init in H. lia. Qed.

Lemma construction_valid ts s : exec init ts s -> all_done s ->
  exists T, tree_of m s = Some T /\ ValidTree le vol perm T.
Proof.
  intros He HD. destruct (exec_inv _ _ _ _ init_inv He) as [[arr I] _].
  pose proof (done_final s arr I HD) as HF. destruct (final_tree s HF) as [T HT].
  exists T. split; [done|]. by eapply final_valid.
Qed.

Lemma construction_split ts s T : exec init ts s -> all_done s -> tree_of m s = Some T ->
  forall i l sp r rp c1 c2 rp1 rp2,
  Covers T i l r rp -> getLeftChild T i = Some c1 -> Covers T c1 l sp rp1 -> Covers T c2 (S sp) r rp2 -> l < r ->
  forall k, l <= k < r -> k <> sp -> (delta (Z.of_nat k) < delta (Z.of_nat sp))%Z.
Proof.
  intros He HD HT. destruct (exec_inv _ _ _ _ init_inv He) as [[arr I] _].
  exact (final_split s T (done_final s arr I HD) HT).
Qed.

Lemma construction_same ts s ts' s' T T' : exec init ts s -> all_done s -> exec init ts' s' -> all_done s' ->
  tree_of m s = Some T -> tree_of m s' = Some T' -> SameTree T T'.
Proof.
  intros He HD He' HD' HT HT'. destruct (exec_inv _ _ _ _ init_inv He) as [[arr I] _].
  destruct (exec_inv _ _ _ _ init_inv He') as [[arr' I'] _].
  apply (final_same s s'); auto; eapply done_final; eauto.
Qed.

(** No node slot is written twice: a step never changes an initialised slot. *)
Lemma construction_write_once ts s t s' : exec init ts s -> step s t = Some s' ->
  (forall i x, st_leaves s !! i = Some (Some x) -> st_leaves s' !! i = Some (Some x)) /\
  (forall k x, st_nodes s !! k = Some (Some x) -> st_nodes s' !! k = Some (Some x)) /\
  (forall x lc, st_pcs s !! t = Some (PWrite x lc) -> exists k nd, st_nodes s !! k = Some None /\ st_nodes s' = <[k := Some nd]> (st_nodes s)) /\
  (st_pcs s !! t = Some PInit -> exists nd, st_leaves s !! t = Some None /\ st_leaves s' = <[t := Some nd]> (st_leaves s)).
Proof.
  intros He Hs. destruct (exec_inv _ _ _ _ init_inv He) as [[arr I] _].
  destruct (step_pc _ _ _ Hs) as (p & Hp & Hne).
  assert (p = PInit -> st_leaves s !! t = Some None) as HLI.
  { intros ->. destruct (lookup_lt_is_Some_2 (st_leaves s) t) as [[nd|] Hn]; [|by apply (i_leaf1 _ _ I) in Hn|done].
    rewrite (i_leaves _ _ I). apply lookup_lt_Some in Hp. by rewrite (i_pcs _ _ I) in Hp. }
  unfold TreeConstructionModel.step in Hs. rewrite Hp in Hs. cbn [mbind option_bind] in Hs.
  destruct p as [|x|x lc sl sb|x lc|]; [| | | |done].
  - destruct (perm !! t) as [o|]; [|done]. cbn [mbind option_bind] in Hs.
    destruct (wr (st_leaves s) t _) as [ls|] eqn:Ew; [|done]. cbn [mbind option_bind] in Hs. injection Hs as <-.
    apply wr_inv in Ew as [? ->]. cbn [st_leaves st_nodes]. specialize (HLI eq_refl).
    split; [|split; [done|split; [by rewrite Hp|eauto]]].
    intros i y Hi. rewrite list_lookup_insert_ne; [done|]. intros ->. congruence.
  - assert (st_leaves s' = st_leaves s /\ st_nodes s' = st_nodes s) as [E1 E2].
    { destruct (th_dr x <? th_dl x)%Z.
      - destruct (st_ranges s !! th_r x) as [[v|]|]; cbn [mbind option_bind] in Hs; [by injection Hs as <-| |done].
        destruct (wr _ _ _); [|done]. cbn [mbind option_bind] in Hs. by injection Hs as <-.
      - destruct (th_l x =? 0); [done|].
        destruct (st_ranges s !! (th_l x - 1)) as [[v|]|]; cbn [mbind option_bind] in Hs; [by injection Hs as <-| |done].
        destruct (wr _ _ _); [|done]. cbn [mbind option_bind] in Hs. by injection Hs as <-. }
    rewrite E1, E2. split; [done|]. split; [done|]. split; by rewrite Hp.
  - destruct (if sl : bool then _ else _) as [v|]; [|done]. cbn [mbind option_bind] in Hs. injection Hs as <-.
    split; [done|]. split; [done|]. split; by rewrite Hp.
  - destruct (write_step s arr t x lc I Hp) as [Hnone _].
    pose proof (i_th _ _ I _ _ Hp) as (Hdl & Hdr & _). rewrite Hdl, Hdr in Hs.
    change (if (e (S (th_r x)) <? e (th_l x))%Z then th_r x else th_l x) with (K (th_l x) (th_r x)) in Hs.
    destruct (wr (st_nodes s) _ _) as [ns|] eqn:Ew; [|done]. cbn [mbind option_bind] in Hs. injection Hs as <-.
    apply wr_inv in Ew as [? ->]. cbn [st_leaves st_nodes].
    split; [done|]. split; [|split; [|by rewrite Hp]].
    + intros k y Hk. rewrite list_lookup_insert_ne; [done|]. intros E. rewrite E in Hnone. congruence.
    + intros _ _ _. eauto.
Qed.
End Proof.
