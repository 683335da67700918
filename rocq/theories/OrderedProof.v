(** Proofs about the ordered spatial traversal. *)
From Verif Require Export NearestProof.


Section Ordered.
Context {V D : Type} (le : V -> V -> Prop) (vol : nat -> V) (perm : list nat) (T : tree V).
Hypothesis VT : ValidTree le vol perm T.
Hypothesis n_ge : 2 <= length perm.
Variables (ltb : D -> D -> bool) (inf : D) (dl : nat -> D) (dv : V -> D) (cap : nat).
Hypothesis SW : StrictWeak ltb.
Hypothesis DS : DistSafe le vol ltb dl dv.
Hypothesis DM : DistMono le ltb dv.

Notation n := (length perm).
Notation val := (NearestProof.val perm).
Notation dp := (NearestProof.dp perm dl).
Notation low := (NearestProof.low perm ltb dl).
Notation cmpf := (cmp_far ltb).
Definition node_dist' := NearestProof.node_dist le vol perm T VT n_ge ltb inf inf dl dv 1 SW DS (le_n 1).
Definition nlt := NearestProof.not_lt_trans ltb SW.
Definition asym := NearestProof.lt_asym ltb SW.

Lemma SWf : StrictWeak cmpf.
Proof.
  constructor; intros *; unfold cmp_far; [apply SW| |].
  - intros A B. eapply (sw_trans _ SW); eauto.
  - intros A B. eapply nlt; eauto.
Qed.

(** children are no closer than their parent *)
Lemma child_dist i l r rp c l' r' rp' d d' : Covers T i l r rp -> isLeaf T i = false -> Covers T c l' r' rp' -> l <= l' -> r' <= r ->
  node_distance T dl dv i = Some d -> node_distance T dl dv c = Some d' -> ltb d' d = false.
Proof.
  intros HC HL HC' Hl Hr Hd Hd'. unfold node_distance in Hd. rewrite HL in Hd.
  destruct (node_case le vol perm T VT _ _ _ _ HC HL) as (s & c1 & c2 & v & Hs & _ & _ & _ & Ev & [Hh _] & _).
  rewrite Ev in Hd. simpl in Hd. injection Hd as <-.
  unfold node_distance in Hd'. destruct (isLeaf T c) eqn:HLc.
  - destruct (leaf_case le vol perm T VT _ _ _ _ HC' HLc) as (-> & -> & o & Ho & Eo & _). rewrite Eo in Hd'. simpl in Hd'.
    injection Hd' as <-. apply DS. apply (Hh c); [lia|done].
  - destruct (node_case le vol perm T VT _ _ _ _ HC' HLc) as (s' & _ & _ & v' & Hs' & _ & _ & _ & Ev' & [_ Hh'] & _).
    rewrite Ev' in Hd'. simpl in Hd'. injection Hd' as <-. apply DM. apply Hh'. intros j o Hj Ho. apply (Hh j); [lia|done].
Qed.

Definition fv (L : list (nat * nat)) : list nat := base.filter (fun o => ltb (dl o) inf = true) (map val (flat_map rng L)).
Lemma fv_cons q L : fv (q :: L) = fv [q] ++ fv L.
Proof. unfold fv. simpl. rewrite app_nil_r. by rewrite map_app, filter_app. Qed.
Global Instance fv_perm : Proper ((≡ₚ) ==> (≡ₚ)) fv.
Proof. intros L L' HP. unfold fv. apply filter_Permutation, Permutation_map. by apply Permutation_flat_map. Qed.

Lemma fv_inf l r d : l <= r -> low d l r -> ltb d inf = false -> fv [(l, r)] = [].
Proof.
  intros Hlr Hlow Hd. unfold fv. cbn [flat_map]. rewrite app_nil_r.
  destruct (base.filter _ (map val (rng (l, r)))) as [|x xs] eqn:Ef; [done|exfalso].
  assert (x ∈ base.filter (fun o => ltb (dl o) inf = true) (map val (rng (l, r)))) as Hx by (rewrite Ef; left).
  apply elem_of_list_filter in Hx as [Hfx Hx]. apply elem_of_list_fmap in Hx as (p & -> & Hp).
  apply rng_elem in Hp; [|done]. specialize (Hlow p Hp). pose proof (nlt _ _ _ Hlow Hd) as E. unfold NearestProof.dp in E. congruence.
Qed.
Lemma fv_split l s r : l <= s < r -> fv [(l, r)] = fv [(l, s)] ++ fv [(S s, r)].
Proof. intros H. unfold fv. cbn [flat_map]. rewrite !app_nil_r. rewrite (rng_split l s r) by done. by rewrite map_app, filter_app. Qed.

Definition Good (L : list (nat * nat)) (d : D) (acc : list nat) (out : res (list nat)) : Prop :=
  exists F X, out = Ok (acc ++ F ++ X) /\ F ≡ₚ fv L /\ Ascending (fun a b => ltb (dl a) (dl b)) F /\
    (forall a, a ∈ F -> ltb (dl a) d = false) /\ length X <= 1 /\ forall x, x ∈ X -> x ∈ perm /\ ltb (dl x) inf = false.

Lemma Good_mono L L' d d' acc out : Good L' d' acc out -> fv L' ≡ₚ fv L -> ltb d' d = false -> Good L d acc out.
Proof.
  intros (F & X & A & B & C & E & G & H) HL Hd. exists F, X. split; [done|]. split; [by rewrite B|]. split; [done|].
  split; [|done]. intros a Ha. eapply nlt; [by apply E|done].
Qed.

Definition PendO (q : nat * D) (rr : nat * nat) : Prop :=
  exists rp, Covers T (fst q) (fst rr) (snd rr) rp /\ node_distance T dl dv (fst q) = Some (snd q) /\ ltb (snd q) inf = true.
Definition size (rs : list (nat * nat)) : nat := sum_list_with (fun q => S (snd q) - fst q) rs.
Definition work2 (rs : list (nat * nat)) : nat := sum_list_with (fun q => 2 * (snd q - fst q) + 1) rs.
Lemma size_perm a b : a ≡ₚ b -> size a = size b.
Proof. unfold size. induction 1; simpl; lia. Qed.
Lemma work2_perm a b : a ≡ₚ b -> work2 a = work2 b.
Proof. unfold work2. induction 1; simpl; lia. Qed.

Lemma PendO_le q rr : PendO q rr -> fst rr <= snd rr.
Proof. intros (rp & HC & _). apply (Covers_range le vol perm T VT _ _ _ _ HC). Qed.
Lemma size_len h rs : Forall2 PendO h rs -> length h <= size rs.
Proof.
  induction 1 as [|q rr h rs Hq HF IH]; unfold size in *; simpl; [lia|]. apply PendO_le in Hq. unfold sum_list_with in *. lia.
Qed.

Lemma opush_ok h q : length h < cap -> HeapOrd cmpf h (length h) ->
  exists h', opush ltb cap h q = Ok h' /\ h' ≡ₚ q :: h /\ HeapOrd cmpf h' (length h').
Proof.
  intros Hl HO. unfold opush. destruct (Nat.ltb_spec (length h) cap); [|lia].
  destruct (pq_push_correct cmpf SWf cap h q Hl HO) as (h' & -> & P & O). exists h'. done.
Qed.

Definition rec0 (l : list nat) (v : nat) : list nat * bool := (l ++ [v], false).
Notation loop := (ordered_loop T ltb inf dl dv cap rec0).

Lemma asc_cons (f : nat -> nat -> bool) v F : (forall a, a ∈ F -> f a v = false) -> Ascending f F -> Ascending f (v :: F).
Proof.
  intros Hv HF i j x y Hij Hx Hy. destruct j as [|j]; [lia|]. simpl in Hy. destruct i as [|i]; simpl in Hx.
  - injection Hx as <-. apply Hv. by eapply elem_of_list_lookup_2.
  - apply (HF i j x y); [lia|done|done].
Qed.

Lemma ordered_ok fuel : forall cur d h l r rs acc,
  work2 ((l, r) :: rs) <= fuel -> size ((l, r) :: rs) <= cap ->
  (exists rp, Covers T cur l r rp) -> node_distance T dl dv cur = Some d ->
  Forall2 PendO h rs -> HeapOrd cmpf h (length h) -> (forall e, e ∈ h -> ltb (snd e) d = false) ->
  Good ((l, r) :: rs) d acc (loop fuel cur h acc).
Proof.
  induction fuel as [|fuel IH]; intros cur d h l r rs acc Hw Hsz [rp HC] Hd HF HO Hle.
  { unfold work2 in Hw. simpl in Hw. lia. }
  (* the heap is non-empty: popping gives a next node *)
  assert (Hpop : forall t h0, h = t :: h0 -> exists h' l' r' rs', pq_pop cmpf h = Some h' /\ h ≡ₚ t :: h' /\ HeapOrd cmpf h' (length h') /\
     (forall e, e ∈ h' -> ltb (snd e) (snd t) = false) /\ rs ≡ₚ (l', r') :: rs' /\ PendO t (l', r') /\ Forall2 PendO h' rs').
  { intros t h0 Eh. destruct (pq_pop_correct cmpf SWf h t HO) as (h' & E & P & O & M); [by rewrite Eh|].
    destruct (Permutation_Forall2 (symmetry P) HF) as (rs2 & P2 & F2). 
    inversion F2 as [|? [l' r'] ? rs' Ht F3]; subst rs2. subst. exists h', l', r', rs'.
    split; [done|]. split; [by symmetry|]. split; [done|]. split; [|done].
    intros e He. apply (M e). rewrite <- P. by right. }
  assert (Hinf : ltb d inf = false -> h = []).
  { intros Hd'. destruct h as [|t h0]; [done|exfalso]. inversion HF as [|? rr ? ? (rp' & _ & _ & Ht) _]; subst.
    pose proof (Hle t ltac:(left)) as H1. rewrite (nlt _ _ _ H1 Hd') in Ht. done. }
  pose proof (Covers_range le vol perm T VT _ _ _ _ HC) as Hlr.
  cbn [ordered_loop]. destruct (isLeaf T cur) eqn:HL.
  - destruct (leaf_case le vol perm T VT _ _ _ _ HC HL) as (-> & -> & v & Hv & Ev & _). rewrite Ev.
    assert (rec0 acc v = (acc ++ [v], false)) as Er0 by reflexivity. rewrite Er0. clear Er0.
    assert (d = dl v) as -> by (unfold node_distance in Hd; rewrite HL, Ev in Hd; simpl in Hd; congruence).
    assert (val cur = v) as Evv by (unfold NearestProof.val; by rewrite Hv).
    assert (map val (rng (cur, cur)) = [v]) as Em.
    { unfold rng. cbn [fst snd]. replace (S cur - cur) with 1 by lia. simpl. by rewrite Evv. }
    destruct (ltb (dl v) inf) eqn:Hfin.
    + assert (fv [(cur, cur)] = [v]) as E1.
      { unfold fv. cbn [flat_map]. rewrite app_nil_r, Em. by rewrite filter_cons_True. }
      destruct h as [|t h0] eqn:Eh.
      * inversion HF; subst rs. exists [v], []. rewrite E1. split; [by rewrite app_nil_r|]. split; [done|].
        split; [|split; [|split; [simpl; lia|]]].
        -- apply asc_cons; [|intros i j x y _ Hx; done]. intros a Ha. by apply elem_of_nil in Ha.
        -- intros a Ha. apply elem_of_list_singleton in Ha as ->. apply SW.
        -- intros x Hx. by apply elem_of_nil in Hx.
      * destruct (Hpop t h0 eq_refl) as (h' & l' & r' & rs' & Ep & P & O & M & PR & Ht & F').
        rewrite Ep. pose proof (Hle t ltac:(left)) as Hvt. destruct Ht as (rp' & HC' & Hd' & Hf'). simpl in HC'.
        assert (Good ((l', r') :: rs') (snd t) (acc ++ [v]) (loop fuel (fst t) h' (acc ++ [v]))) as (F & X & E & FP & FA & FL & XL & XI).
        { apply IH; eauto.
          - rewrite (work2_perm _ _ (Permutation_cons (eq_refl (cur,cur)) PR)) in Hw. unfold work2 in *. simpl in *. lia.
          - rewrite (size_perm _ _ (Permutation_cons (eq_refl (cur,cur)) PR)) in Hsz. unfold size in *. simpl in *. lia. }
        exists (v :: F), X. split; [rewrite E; by rewrite <- app_assoc|]. split; [|split; [|split; [|done]]].
        -- rewrite fv_cons, E1, FP, PR. done.
        -- apply asc_cons; [|done]. intros a Ha. eapply nlt; [by apply FL|done].
        -- intros a Ha. apply elem_of_cons in Ha as [->|Ha]; [apply SW|]. eapply nlt; [by apply FL|done].
    + rewrite (Hinf eq_refl) in *. inversion HF; subst rs. exists [], [v].
      assert (fv [(cur, cur)] = []) as ->.
      { unfold fv. cbn [flat_map]. rewrite app_nil_r, Em. rewrite filter_cons_False; [done|]. by rewrite Hfin. }
      split; [done|]. split; [done|]. split; [intros i j x y _ Hx; done|]. split; [intros a Ha; by apply elem_of_nil in Ha|].
      split; [simpl; lia|]. intros x Hx. apply elem_of_list_singleton in Hx as ->. split; [by eapply elem_of_list_lookup_2|done].
  - destruct (node_case le vol perm T VT _ _ _ _ HC HL) as (s & lc & rc & v & Hs & -> & -> & _ & _ & _ & C1 & C2).
    destruct (node_dist' _ _ _ _ C1) as (dL & EL & HlowL & _). destruct (node_dist' _ _ _ _ C2) as (dR & ER & HlowR & _).
    rewrite EL, ER.
    pose proof (child_dist _ _ _ _ _ _ _ _ _ _ HC HL C1 ltac:(lia) ltac:(lia) Hd EL) as GL.
    pose proof (child_dist _ _ _ _ _ _ _ _ _ _ HC HL C2 ltac:(lia) ltac:(lia) Hd ER) as GR.
    set (closer := if ltb dL dR then (lc, dL) else (rc, dR)).
    set (further := if ltb dL dR then (rc, dR) else (lc, dL)).
    assert (exists cl cr fl fr rpc rpf, Covers T (fst closer) cl cr rpc /\ node_distance T dl dv (fst closer) = Some (snd closer) /\
       low (snd closer) cl cr /\ Covers T (fst further) fl fr rpf /\ node_distance T dl dv (fst further) = Some (snd further) /\
       low (snd further) fl fr /\ ltb (snd further) (snd closer) = false /\ ltb (snd closer) d = false /\ ltb (snd further) d = false /\
       fv [(l, r)] ≡ₚ fv [(cl, cr)] ++ fv [(fl, fr)] /\ (2 * (cr - cl) + 1) + (2 * (fr - fl) + 1) <= 2 * (r - l) /\
       (S cr - cl) + (S fr - fl) = S r - l)
      as (cl & cr & fl & fr & rpc & rpf & CC & EC & LC & CF & EF & LF & Hcf & Hcd & Hfd & Hfv & Hwk & Hsize).
    { unfold closer, further. destruct (ltb dL dR) eqn:Elt.
      - exists l, s, (S s), r, (Some rc), rp. simpl. repeat (split; [done|]). split; [by apply asym|]. split; [done|]. split; [done|].
        split; [by rewrite (fv_split l s r)|]. lia.
      - exists (S s), r, l, s, rp, (Some rc). simpl. do 9 (split; [done|]). 
        split; [rewrite (fv_split l s r) by done; apply Permutation_app_comm|]. lia. }
    clearbody closer further. clear C1 C2 EL ER HlowL HlowR GL GR dL dR lc rc.
    pose proof (Covers_range le vol perm T VT _ _ _ _ CC) as RC. pose proof (Covers_range le vol perm T VT _ _ _ _ CF) as RF.
    (* the common tail: push further if finite and continue *)
    assert (Hfin : forall node' d' h' l' r' rs',
       (exists rp', Covers T node' l' r' rp') -> node_distance T dl dv node' = Some d' -> Forall2 PendO h' rs' ->
       HeapOrd cmpf h' (length h') -> (forall e, e ∈ h' -> ltb (snd e) d' = false) -> ltb (snd further) d' = false ->
       ltb d' d = false -> (2 * (fr - fl) + 1) + work2 ((l', r') :: rs') <= fuel -> (S fr - fl) + size ((l', r') :: rs') <= cap ->
       fv ((fl, fr) :: (l', r') :: rs') ≡ₚ fv ((l, r) :: rs) ->
       Good ((l, r) :: rs) d acc
         (if ltb (snd further) inf then
            match opush ltb cap h' further with
            | Ok h'' => loop fuel node' h'' acc | UB => UB | NoFuel => NoFuel | Overflow => Overflow end
          else loop fuel node' h' acc)).
    { intros node' d' h' l' r' rs' HC' Hd' HF' HO' Hle' Hf' Hdd Hw' Hs' Hfv'.
      assert (l' <= r') as Hl'. { destruct HC' as [rp' HC']. by apply (Covers_range le vol perm T VT _ _ _ _ HC'). }
      destruct (ltb (snd further) inf) eqn:Efi.
      - pose proof (size_len _ _ HF') as Hlen.
        destruct (opush_ok h' further) as (h'' & -> & P & O). { unfold size in *. simpl in *. lia. } { done. }
        destruct (Permutation_Forall2 (l1 := further :: h') (l1' := h'') (l2 := (fl, fr) :: rs') (P := PendO)) as (rs2 & P2 & F2).
        { by symmetry. } { constructor; [|done]. exists rpf. simpl. done. }
        eapply (Good_mono _ ((l', r') :: rs2) d d'); [|rewrite <- P2, <- Hfv'; by rewrite Permutation_swap|done].
        apply IH; eauto.
        + rewrite <- (work2_perm _ _ (Permutation_cons (eq_refl (l',r')) P2)). unfold work2 in *. simpl in *. lia.
        + rewrite <- (size_perm _ _ (Permutation_cons (eq_refl (l',r')) P2)). unfold size in *. simpl in *. lia.
        + intros e He. rewrite P in He. apply elem_of_cons in He as [->|He]; auto.
      - eapply (Good_mono _ ((l', r') :: rs') d d'); [|rewrite <- Hfv', (fv_cons (fl, fr)); rewrite (fv_inf fl fr (snd further)); [done|lia|done|done]|done].
        apply IH; eauto; unfold work2, size in *; simpl in *; lia. }
    unfold work2 in Hw. simpl in Hw. unfold size in Hsz. simpl in Hsz.
    destruct h as [|t h0] eqn:Eh.
    + inversion HF; subst rs. simpl in Hw, Hsz. apply (Hfin (fst closer) (snd closer) [] cl cr []); eauto; [intros e He; by apply elem_of_nil in He|..].
      * unfold work2. simpl. lia.
      * unfold size. simpl. lia.
      * rewrite Hfv. rewrite (fv_cons (fl, fr) [(cl, cr)]). apply Permutation_app_comm.
    + destruct (ltb (snd t) (snd closer)) eqn:Etc.
      * destruct (Hpop t h0 eq_refl) as (h' & l' & r' & rs' & Ep & P & O & M & PR & Ht & F').
        rewrite Ep. pose proof (Hle t ltac:(left)) as Htd. destruct Ht as (rp' & HC' & Hd' & Hf'). simpl in HC'.
        pose proof (Covers_range le vol perm T VT _ _ _ _ HC') as R'.
        pose proof (size_len _ _ F') as Hlen.
        assert (sum_list_with (λ q, 2 * (q.2 - q.1) + 1) rs = (2 * (r' - l') + 1) + sum_list_with (λ q, 2 * (q.2 - q.1) + 1) rs') as W'.
        { pose proof (work2_perm _ _ PR) as HH. exact HH. }
        assert (sum_list_with (λ q, S q.2 - q.1) rs = (S r' - l') + sum_list_with (λ q, S q.2 - q.1) rs') as S'.
        { pose proof (size_perm _ _ PR) as HH. exact HH. }
        assert (ltb (snd closer) (snd t) = false) as Hct by (by apply asym).
        assert (ltb (snd further) (snd t) = false) as Hft by exact (nlt _ _ _ Hcf Hct).
        destruct (ltb (snd closer) inf) eqn:Eci.
        -- destruct (opush_ok h' closer) as (h'' & -> & P2 & O2). { unfold size in *. lia. } { done. }
           destruct (Permutation_Forall2 (l1 := closer :: h') (l1' := h'') (l2 := (cl, cr) :: rs') (P := PendO)) as (rs2 & P3 & F3).
           { by symmetry. } { constructor; [|done]. exists rpc. simpl. done. }
           apply (Hfin (fst t) (snd t) h'' l' r' rs2); eauto.
           ++ intros e He. rewrite P2 in He. apply elem_of_cons in He as [->|He]; auto.
           ++ rewrite <- (work2_perm _ _ (Permutation_cons (eq_refl (l',r')) P3)). unfold work2. simpl. lia.
           ++ rewrite <- (size_perm _ _ (Permutation_cons (eq_refl (l',r')) P3)). unfold size. simpl. lia.
           ++ rewrite <- P3. rewrite PR. rewrite (fv_cons (fl, fr)), (fv_cons (l, r)), Hfv.
              rewrite Permutation_swap. rewrite (fv_cons (cl, cr)). rewrite !app_assoc. f_equiv. apply Permutation_app_comm.
        -- apply (Hfin (fst t) (snd t) h' l' r' rs'); eauto.
           ++ unfold work2. simpl. lia.
           ++ unfold size. simpl. lia.
           ++ rewrite PR. rewrite (fv_cons (fl, fr)), (fv_cons (l, r)), Hfv.
              rewrite (fv_inf cl cr (snd closer)); [done|lia|done|done].
      * apply (Hfin (fst closer) (snd closer) (t :: h0) cl cr rs); eauto.
        -- intros e He. eapply nlt; [|exact Etc]. destruct (Hpop t h0 eq_refl) as (h' & l' & r' & rs' & Ep & P & O & M & _).
           rewrite P in He. apply elem_of_cons in He as [->|He]; [apply SW|auto].
        -- unfold work2. simpl. lia.
        -- unfold size. simpl. lia.
        -- rewrite (fv_cons (fl, fr)), (fv_cons (l, r)), (fv_cons (cl, cr)), Hfv. rewrite !app_assoc. f_equiv. apply Permutation_app_comm.
Qed.
End Ordered.

Section OrderedTop.
Context {V D St : Type} (T : tree V).
Variables (ltb : D -> D -> bool) (inf : D) (dl : nat -> D) (dv : V -> D).

(** A larger buffer changes nothing except that overflows may disappear. *)
Lemma opush_cap cap cap' h q : cap <= cap' -> opush ltb cap h q = Overflow \/ opush ltb cap h q = opush ltb cap' h q.
Proof.
  intros Hc. unfold opush, pq_push. destruct (Nat.ltb_spec (length h) cap); [|by left]. right.
  destruct (Nat.ltb_spec (length h) cap'); [done|lia].
Qed.

Lemma ordered_cap cap cap' (cb : St -> nat -> St * bool) : cap <= cap' -> forall fuel node h st,
  ordered_loop T ltb inf dl dv cap cb fuel node h st = Overflow \/
  ordered_loop T ltb inf dl dv cap cb fuel node h st = ordered_loop T ltb inf dl dv cap' cb fuel node h st.
Proof.
  intros Hc. induction fuel as [|fuel IH]; intros node h st; [by right|]. cbn [ordered_loop].
  destruct (isLeaf T node).
  - destruct (getValue T node); [|by right]. destruct (cb st n) as [st' [|]]; [by right|]. destruct h as [|t h0]; [by right|].
    destruct (pq_pop _ _); [apply IH|by right].
  - destruct (getLeftChild T node) as [lc|]; [|by right]. destruct (getRightChild T node) as [[rc|]|]; [|by right..].
    destruct (node_distance T dl dv lc) as [dL|]; [|by right]. destruct (node_distance T dl dv rc) as [dR|]; [|by right].
    set (closer := if ltb dL dR then (lc, dL) else (rc, dR)). set (further := if ltb dL dR then (rc, dR) else (lc, dL)).
    assert (Hfin : forall node' h',
       let f c := if ltb (snd further) inf then
              match opush ltb c h' further with
              | Ok h'' => ordered_loop T ltb inf dl dv c cb fuel node' h'' st
              | UB => UB | NoFuel => NoFuel | Overflow => Overflow end
            else ordered_loop T ltb inf dl dv c cb fuel node' h' st in f cap = Overflow \/ f cap = f cap').
    { intros node' h' f. unfold f. destruct (ltb _ inf); [|apply IH].
      destruct (opush_cap cap cap' h' further Hc) as [->| ->]; [by left|]. destruct (opush ltb cap' h' further); try by right. apply IH. }
    destruct h as [|t h0]; [apply Hfin|]. destruct (ltb (snd t) (snd closer)); [|apply Hfin].
    destruct (pq_pop _ _) as [h'|]; [|by right]. destruct (ltb (snd closer) inf); [|apply Hfin].
    destruct (opush_cap cap cap' h' closer Hc) as [->| ->]; [by left|]. destruct (opush ltb cap' h' closer); try by right. apply Hfin.
Qed.

(** The sequence of values does not depend on the callback, only how far it is followed. *)
Lemma ordered_trace cap (cb : St -> nat -> St * bool) fuel : forall node h acc out,
  ordered_loop T ltb inf dl dv cap rec0 fuel node h acc = Ok out -> exists tr, out = acc ++ tr /\
  forall st, exists calls rest st' e, ordered_loop T ltb inf dl dv cap cb fuel node h st = Ok st' /\
    tr = calls ++ rest /\ Visits cb st calls st' e /\ (e = false -> rest = []).
Proof.
  induction fuel as [|fuel IH]; intros node h acc out; [done|]. cbn [ordered_loop].
  destruct (isLeaf T node).
  - destruct (getValue T node) as [v|]; [|done].
    assert (rec0 acc v = (acc ++ [v], false)) as -> by reflexivity.
    assert (Hc : forall tr' (f : St -> res St), (forall st, exists calls rest st' e, f st = Ok st' /\
       tr' = calls ++ rest /\ Visits cb st calls st' e /\ (e = false -> rest = [])) ->
       forall st, exists calls rest st' e, (let '(st', ex) := cb st v in if ex : bool then Ok st' else f st') = Ok st' /\
         v :: tr' = calls ++ rest /\ Visits cb st calls st' e /\ (e = false -> rest = [])).
    { intros tr' f Hf st. destruct (cb st v) as [st' [|]] eqn:E.
      - exists [v], tr', st', true. split; [done|]. split; [done|]. split; [by constructor|done].
      - destruct (Hf st') as (calls & rest & st2 & e & A & B & C & G). exists (v :: calls), rest, st2, e.
        split; [done|]. split; [by rewrite B|]. split; [by econstructor|done]. }
    destruct h as [|t h0].
    + intros [= <-]. exists [v]. split; [done|]. apply (Hc [] (fun st => Ok st)). intros st. exists [], [], st, false.
      split; [done|]. split; [done|]. split; [constructor|done].
    + destruct (pq_pop (cmp_far ltb) (t :: h0)) as [h'|]; [|done]. intros H. destruct (IH _ _ _ _ H) as (tr' & -> & Htr).
      exists (v :: tr'). split; [by rewrite <- app_assoc|]. exact (Hc tr' (fun st => ordered_loop T ltb inf dl dv cap cb fuel (fst t) h' st) Htr).
  - destruct (getLeftChild T node) as [lc|]; [|done]. destruct (getRightChild T node) as [[rc|]|]; [|done..].
    destruct (node_distance T dl dv lc) as [dL|]; [|done]. destruct (node_distance T dl dv rc) as [dR|]; [|done].
    set (closer := if ltb dL dR then (lc, dL) else (rc, dR)). set (further := if ltb dL dR then (rc, dR) else (lc, dL)).
    assert (Hfin : forall node' h',
       (if ltb (snd further) inf then
              match opush ltb cap h' further with
              | Ok h'' => ordered_loop T ltb inf dl dv cap rec0 fuel node' h'' acc
              | UB => UB | NoFuel => NoFuel | Overflow => Overflow end
            else ordered_loop T ltb inf dl dv cap rec0 fuel node' h' acc) = Ok out ->
       exists tr, out = acc ++ tr /\ forall st, exists calls rest st' e,
        (if ltb (snd further) inf then
              match opush ltb cap h' further with
              | Ok h'' => ordered_loop T ltb inf dl dv cap cb fuel node' h'' st
              | UB => UB | NoFuel => NoFuel | Overflow => Overflow end
            else ordered_loop T ltb inf dl dv cap cb fuel node' h' st) = Ok st' /\
        tr = calls ++ rest /\ Visits cb st calls st' e /\ (e = false -> rest = [])).
    { intros node' h'. destruct (ltb (snd further) inf); [|apply IH]. destruct (opush ltb cap h' further); try done. apply IH. }
    destruct h as [|t h0]; [apply Hfin|]. destruct (ltb (snd t) (snd closer)); [|apply Hfin].
    destruct (pq_pop _ _) as [h'|]; [|done]. destruct (ltb (snd closer) inf); [|apply Hfin].
    destruct (opush ltb cap h' closer); try done. apply Hfin.
Qed.
End OrderedTop.

Lemma ordered_query_correct {V D St} (le : V -> V -> Prop) vol perm T ltb (inf : D) dl dv cap (cb : St -> nat -> St * bool) isinf st :
  Index le vol perm T -> StrictWeak ltb -> DistSafe le vol ltb dl dv -> DistMono le ltb dv ->
  (forall d, isinf d = negb (ltb d inf)) ->
  (ordered_query T ltb inf dl dv cap cb isinf st = Overflow /\ cap < length perm) \/
  exists F X calls rest st' e, ordered_query T ltb inf dl dv cap cb isinf st = Ok st' /\
    OrderedAnswer ltb inf dl perm F X /\ F ++ X = calls ++ rest /\ Visits cb st calls st' e /\ (e = false -> rest = []).
Proof.
  intros HI SW DS DM Hinf. destruct HI as [(HL & HS & HV)|(HL & VT)].
  - right. unfold ordered_query. rewrite HS. destruct perm as [|o [|]]; simpl in *; [| |lia].
    + exists [], [], [], [], st, false. split; [done|]. split; [|split; [done|split; [constructor|done]]].
      split; [done|]. split; [intros i j x y _ Hx; done|]. split; [simpl; lia|]. intros x Hx. by apply elem_of_nil in Hx.
    + rewrite (HV 0). simpl. rewrite Hinf. destruct (ltb (dl o) inf) eqn:E; simpl.
      * assert (OrderedAnswer ltb inf dl [o] [o] []) as HA.
        { split; [by rewrite filter_cons_True|]. split; [|split; [simpl; lia|intros x Hx; by apply elem_of_nil in Hx]].
          intros [|i] [|j] x y Hij Hx Hy; try lia; done. }
        destruct (cb st o) as [st' e] eqn:Ec. exists [o], [], [o], [], st', e. split; [done|]. split; [done|].
        split; [done|]. split; [|done]. destruct e; [by constructor|]. econstructor; [done|constructor].
      * exists [], [], [], [], st, false. split; [done|]. split; [|split; [done|split; [constructor|done]]].
        split; [rewrite filter_cons_False; [done|by rewrite E]|]. split; [intros i j x y _ Hx; done|]. split; [simpl; lia|]. intros x Hx. by apply elem_of_nil in Hx.
  - unfold ordered_query. pose proof (vt_size _ _ _ _ VT) as HS. destruct (t_size T) as [|[|m]] eqn:Et; [lia..|].
    set (cap' := max cap (length perm)).
    destruct (NearestProof.node_dist le vol perm T VT HL ltb inf inf dl dv 1 SW DS (le_n 1) _ _ _ _ (vt_root _ _ _ _ VT)) as (d & Hd & _).
    pose proof (ordered_ok le vol perm T VT HL ltb inf dl dv cap' SW DS DM (2 * S (S m)) (getRoot T) d [] 0 (length perm - 1) [] []) as HG.
    destruct HG as (F & X & HE & FP & FA & _ & XL & XI); [unfold work2; simpl; lia|unfold size, cap'; simpl; lia|
      by exists None; apply VT|done|constructor|intros i j x y Hj; simpl in Hj; lia|intros e He; by apply elem_of_nil in He|].
    assert (OrderedAnswer ltb inf dl perm F X) as HA.
    { split; [|done]. rewrite FP. unfold fv. cbn [flat_map]. rewrite app_nil_r. unfold rng. cbn [fst snd].
      replace (S (length perm - 1) - 0) with (length perm) by lia.
      rewrite (map_val perm HL ltb inf inf 1 (le_n 1)). done. }
    destruct (ordered_trace T ltb inf dl dv cap' cb _ _ _ _ _ HE) as (tr & Etr & Htr). simpl in Etr. subst tr.
    destruct (Htr st) as (calls & rest & st' & e & A & B & C & G).
    destruct (ordered_cap T ltb inf dl dv cap cap' cb ltac:(lia) (2 * S (S m)) (getRoot T) [] st) as [HO|HO].
    + destruct (decide (length perm <= cap)) as [Hc|Hc]; [|left; split; [done|lia]].
      assert (cap' = cap) as Ec by (unfold cap'; lia). rewrite Ec in *. congruence.
    + right. exists F, X, calls, rest, st', e. rewrite HO. done.
Qed.
