(** Proofs about CrsModel. *)
From Verif Require Import Base KernelAlgModel KernelAlgProof CrsModel CrsSpec.

(** ** Lists laid out one after the other *)
Lemma sum_take_S (l : list nat) q x : l !! q = Some x -> sum_list (take (S q) l) = sum_list (take q l) + x.
Proof. intros H. rewrite (take_S_r _ _ _ H), sum_list_with_app. simpl. lia. Qed.

Lemma sum_take_le (l : list nat) q : sum_list (take q l) <= sum_list l.
Proof. rewrite <- (take_drop q l) at 2. rewrite sum_list_with_app. lia. Qed.

Lemma sum_take_mono (l : list nat) q q' : q <= q' -> sum_list (take q l) <= sum_list (take q' l).
Proof.
  intros H. replace (take q l) with (take q (take q' l)). apply sum_take_le.
  rewrite take_take. f_equal. lia.
Qed.

Lemma layout_inj (l : list nat) q q' p p' x x' :
  l !! q = Some x -> l !! q' = Some x' -> p < x -> p' < x' ->
  sum_list (take q l) + p = sum_list (take q' l) + p' -> q = q' /\ p = p'.
Proof.
  intros H H' Hp Hp' E.
  destruct (Nat.lt_trichotomy q q') as [Hl|[->|Hl]]; [|split; lia|].
  - pose proof (sum_take_mono l (S q) q' Hl). rewrite (sum_take_S _ _ _ H) in *. lia.
  - pose proof (sum_take_mono l (S q') q Hl). rewrite (sum_take_S _ _ _ H') in *. lia.
Qed.

Lemma layout_lt (l : list nat) q p x : l !! q = Some x -> p < x -> sum_list (take q l) + p < sum_list l.
Proof. intros H Hp. pose proof (sum_take_le l (S q)). rewrite (sum_take_S _ _ _ H) in *. lia. Qed.

Lemma layout_find (l : list nat) d : d < sum_list l ->
  exists q p x, l !! q = Some x /\ p < x /\ d = sum_list (take q l) + p.
Proof.
  revert d; induction l as [|x l IH]; intros d Hd; [simpl in Hd; lia|].
  simpl in Hd. destruct (Nat.lt_ge_cases d x).
  - exists 0, d, x. split; [done|]. split; [lia|]. simpl. lia.
  - destruct (IH (d - x)) as (q&p&y&?&?&?); [lia|]. exists (S q), p, y. split; [done|]. split; [lia|]. simpl. lia.
Qed.

Lemma length_concat {A} (L : list (list A)) : length (concat L) = sum_list (length <$> L).
Proof. induction L; simpl; [done|]. rewrite app_length, IHL. done. Qed.

Lemma length_concat_take {A} (L : list (list A)) q : length (concat (take q L)) = sum_list (take q (length <$> L)).
Proof. rewrite length_concat, fmap_take. done. Qed.

Lemma concat_at {A} (L : list (list A)) q l p v : L !! q = Some l -> l !! p = Some v ->
  concat L !! (sum_list (take q (length <$> L)) + p) = Some v.
Proof.
  intros H Hv. replace (concat L) with (concat (take q L ++ l :: drop (S q) L)) by (by rewrite take_drop_middle).
  rewrite concat_app. cbn [concat].
  rewrite lookup_app_r; rewrite length_concat_take; [|lia].
  rewrite lookup_app_l. { rewrite <- Hv. f_equal. lia. }
  pose proof (lookup_lt_Some _ _ _ Hv). lia.
Qed.

(** An array equals the concatenation if its entries are the entries of the parts, placed at the offsets. *)
Lemma array_concat {A} (L : list (list A)) (out : list (option A)) :
  length out = sum_list (length <$> L) ->
  (forall q l p v, L !! q = Some l -> l !! p = Some v ->
     out !! (sum_list (take q (length <$> L)) + p) = Some (Some v)) ->
  out = map Some (concat L).
Proof.
  intros Hl H. apply list_eq. intros d. change (map Some (concat L)) with (Some <$> concat L). rewrite list_lookup_fmap.
  destruct (Nat.lt_ge_cases d (length out)) as [Hd|Hd].
  - rewrite Hl in Hd. destruct (layout_find _ _ Hd) as (q&p&x&Hq&Hp&->).
    rewrite list_lookup_fmap in Hq. destruct (L !! q) as [l|] eqn:El; [|done]. injection Hq as <-.
    destruct (lookup_lt_is_Some_2 l p Hp) as [v Hv].
    rewrite (H q l p v), (concat_at L q l p v); done.
  - rewrite lookup_ge_None_2 by done. rewrite lookup_ge_None_2; [done|]. rewrite length_concat. lia.
Qed.

Lemma excl_scan_length acc l : length (excl_scan acc l) = length l.
Proof. revert acc; induction l; intros; simpl; auto. Qed.

Lemma excl_scan_lookup acc l q : q < length l -> excl_scan acc l !! q = Some (acc + sum_list (take q l)).
Proof.
  revert acc q; induction l as [|x l IH]; intros acc q Hq; [simpl in Hq; lia|].
  destruct q as [|q]; simpl. { f_equal; lia. }
  simpl in Hq. rewrite IH by lia. f_equal. lia.
Qed.

(** ** Events *)
Section Events.
Context {A : Type}.

Fixpoint sel (i : nat) (evs : list (nat * A)) : list A :=
  match evs with
  | [] => []
  | (j, v) :: evs => if i =? j then v :: sel i evs else sel i evs
  end.

Lemma sel_app i a b : sel i (a ++ b) = sel i a ++ sel i b.
Proof. induction a as [|[j v] a IH]; simpl; [done|]. destruct (i =? j); simpl; by rewrite IH. Qed.

Lemma sel_perm i a b : a ≡ₚ b -> sel i a ≡ₚ sel i b.
Proof.
  induction 1 as [|[j v] a b _ IH|[j v] [k w] a|a b c _ IH1 _ IH2]; simpl; [done| | |by rewrite IH1].
  - destruct (i =? j); [by f_equiv|done].
  - destruct (i =? j), (i =? k); try done. constructor.
Qed.

Lemma sel_same i (l : list A) : sel i (pair i <$> l) = l.
Proof. induction l; simpl; [done|]. rewrite Nat.eqb_refl. by f_equal. Qed.

Lemma sel_other i j (l : list A) : i <> j -> sel i (pair j <$> l) = [].
Proof. intros. induction l; simpl; [done|]. by apply Nat.eqb_neq in H as ->. Qed.

Lemma sel_imap (f : nat -> list A) (perm : list nat) i q : perm !! i = Some q ->
  forall b, sel (b + i) (concat (imap (fun k q => pair (b + k) <$> f q) perm)) = f q.
Proof.
  revert i; induction perm as [|q0 perm IH]; intros i Hi b; [done|].
  rewrite imap_cons. cbn [concat]. rewrite sel_app.
  destruct i as [|i]; simpl in Hi.
  - injection Hi as ->. rewrite sel_same.
    assert (sel (b + 0) (concat (imap ((λ k q0, pair (b + k) <$> f q0) ∘ S) perm)) = []) as ->; [|apply app_nil_r].
    clear. cut (forall c, sel (b + 0) (concat (imap (fun k q0 => pair (b + S (c + k)) <$> f q0) perm)) = []).
    { intros H. apply (H 0). }
    induction perm as [|x perm IH]; intros c; [done|].
    rewrite imap_cons. cbn [concat]. rewrite sel_app, sel_other by lia. simpl.
    specialize (IH (S c)). etransitivity; [|exact IH]. do 2 f_equal. apply imap_ext. intros k y _. simpl.
    do 2 f_equal. lia.
  - rewrite sel_other by lia. simpl. etransitivity; [|apply (IH i Hi (S b))].
    f_equal; [lia|]. f_equal. apply imap_ext. intros k y _. simpl. do 2 f_equal. lia.
Qed.

End Events.

(** ** One pass *)
Section Pass.
Context {A : Type}.
Variables (slot : nat -> nat -> option (option nat)) (sl : nat -> nat -> option nat).
Variables (counts0 : list nat) (out0 : list (option A)) (progs : list (list (nat * A))).
Let total i := length (sel i (concat progs)).
Hypothesis Hidx : forall i v, (i, v) ∈ concat progs -> i < length counts0.
Hypothesis Hslot : forall i base p, counts0 !! i = Some base -> p < total i ->
  slot i (base + p) = Some (sl i p) /\ (forall d, sl i p = Some d -> d < length out0).
Hypothesis Hinj : forall i j p q d, i < length counts0 -> j < length counts0 -> p < total i -> q < total j ->
  sl i p = Some d -> sl j q = Some d -> i = j /\ p = q.

Record PInv (s : pstate A) (tr : list (nat * (nat * A))) : Prop := {
  pi_counts : length (p_counts s) = length counts0;
  pi_count : forall i base, counts0 !! i = Some base -> p_counts s !! i = Some (base + length (sel i (snd <$> tr)));
  pi_out : length (p_out s) = length out0;
  pi_all : (snd <$> tr) ++ concat (fst <$> p_thr s) ≡ₚ concat progs;
  pi_len : length (p_thr s) = length progs;
  pi_thr : forall t prog pend, p_thr s !! t = Some (prog, pend) ->
    progs !! t = Some (sel t tr ++ prog);
  pi_key : forall t e, (t, e) ∈ tr -> t < length progs;
  pi_pend : forall t prog d v, p_thr s !! t = Some (prog, Some (d, v)) ->
    exists i p, sel i (snd <$> tr) !! p = Some v /\ sl i p = Some d;
  pi_done : forall i p v d, sel i (snd <$> tr) !! p = Some v -> sl i p = Some d ->
    p_out s !! d = Some (Some v) \/ exists t prog, p_thr s !! t = Some (prog, Some (d, v));
  pi_frame : forall d, (forall i p, i < length counts0 -> p < total i -> sl i p <> Some d) -> p_out s !! d = out0 !! d
}.

Lemma concat_insert (thr : list (list (nat * A) * option (nat * A))) t x prog pend pend' :
  thr !! t = Some (x :: prog, pend) ->
  concat (fst <$> thr) ≡ₚ x :: concat (fst <$> <[t:=(prog, pend')]> thr).
Proof.
  intros H. replace (fst <$> thr) with (fst <$> (take t thr ++ (x :: prog, pend) :: drop (S t) thr)) by (by rewrite take_drop_middle).
  rewrite insert_take_drop by (by eapply lookup_lt_Some).
  rewrite !fmap_app, !concat_app. cbn. rewrite <- Permutation_middle. done.
Qed.

Lemma concat_insert_same (thr : list (list (nat * A) * option (nat * A))) t prog pend pend' :
  thr !! t = Some (prog, pend) ->
  fst <$> <[t:=(prog, pend')]> thr = fst <$> thr.
Proof.
  intros H. rewrite list_fmap_insert. cbn. apply list_insert_id. rewrite list_lookup_fmap, H. done.
Qed.

Lemma sel_lt_idx s tr i p v : PInv s tr -> sel i (snd <$> tr) !! p = Some v ->
  i < length counts0 /\ p < total i.
Proof.
  intros I H. split.
  - assert ((i, v) ∈ (snd <$> tr)) as Hin.
    { clear I. revert H. generalize (snd <$> tr). intros evs. revert p. induction evs as [|[j w] evs IH]; intros p; [done|].
      simpl. destruct (Nat.eqb_spec i j) as [->|].
      - destruct p as [|p]; simpl. { intros [= ->]. left. } intros Hp. right. eauto.
      - intros Hp. right. eauto. }
    eapply (Hidx i v). rewrite <- (pi_all _ _ I). apply elem_of_app. by left.
  - unfold total. rewrite <- (Permutation_length (sel_perm i _ _ (pi_all _ _ I))).
    rewrite sel_app, app_length. apply lookup_lt_Some in H. lia.
Qed.

Lemma pstep_inv s tr t : PInv s tr ->
  exists s' tr', pstep slot s t = Some s' /\ PInv s' tr'.
Proof.
  intros I. unfold pstep. destruct (p_thr s !! t) as [[prog pend]|] eqn:Et; [|by exists s, tr].
  destruct pend as [[d v]|].
  - (* store *)
    destruct (pi_pend _ _ I _ _ _ _ Et) as (i&p&Hv&Hd).
    destruct (sel_lt_idx _ _ _ _ _ I Hv) as [Hi Hp].
    destruct (lookup_lt_is_Some_2 counts0 i Hi) as [base Hb].
    destruct (Hslot i base p Hb Hp) as [_ Hlt]. specialize (Hlt d Hd).
    replace (match prog with [] => _ | _ => _ end) with
      (out' ← wr (p_out s) d (Some v); Some (PState (p_counts s) out' (<[t := (prog, None)]> (p_thr s))))
      by (destruct prog as [|[? ?] ?]; done).
    rewrite wr_Some by (rewrite (pi_out _ _ I); done). simplo.
    eexists _, tr. split; [reflexivity|]. destruct I. constructor; cbn [p_counts p_out p_thr]; auto.
    + by rewrite insert_length.
    + rewrite (concat_insert_same _ _ _ _ _ Et). done.
    + by rewrite insert_length.
    + intros t' prog' pend' H. apply list_lookup_insert_Some in H as [(->&[= <- <-]&_)|[_ H]]; eauto.
    + intros t' prog' d' v' H. apply list_lookup_insert_Some in H as [(->&?&_)|[_ H]]; [done|eauto].
    + intros j q w d' Hw Hd'.
      destruct (decide (d' = d)) as [->|Hne].
      * left. rewrite list_lookup_insert by lia.
        assert (j < length counts0 /\ q < total j) as [Hj Hq].
        { eapply (sel_lt_idx s tr); [constructor; eauto|done]. }
        destruct (Hinj i j p q d) as [-> ->]; auto. congruence.
      * rewrite list_lookup_insert_ne by done.
        destruct (pi_done0 j q w d' Hw Hd') as [?|(t'&prog'&Ht')]; [by left|right].
        exists t', prog'. rewrite list_lookup_insert_ne; [done|]. intros ->. rewrite Et in Ht'. congruence.
    + intros d' Hd'. rewrite list_lookup_insert_ne; [auto|]. intros ->. by apply (Hd' i p).
  - (* fetch_add *)
    destruct prog as [|[i v] prog]; [by exists s, tr|].
    assert ((i, v) ∈ concat progs) as Hin.
    { rewrite <- (pi_all _ _ I). apply elem_of_app. right.
      apply elem_of_list_In, in_concat. exists ((i, v) :: prog). split; [|by left].
      apply elem_of_list_In, elem_of_list_fmap. eexists (_, _). split; [reflexivity|]. by eapply elem_of_list_lookup_2. }
    pose proof (Hidx _ _ Hin) as Hi. destruct (lookup_lt_is_Some_2 counts0 i Hi) as [base Hb].
    rewrite (pi_count _ _ I i base Hb). simplo.
    set (p := length (sel i (snd <$> tr))).
    assert (p < total i) as Hp.
    { unfold total. rewrite <- (Permutation_length (sel_perm i _ _ (pi_all _ _ I))).
      rewrite sel_app, app_length.
      rewrite (Permutation_length (sel_perm i _ _ (concat_insert _ _ _ _ _ None Et))).
      cbn [sel]. rewrite Nat.eqb_refl. simpl. lia. }
    destruct (Hslot i base p Hb Hp) as [-> _]. simplo.
    eexists _, (tr ++ [(t, (i, v))]). split; [reflexivity|].
    pose proof (lookup_lt_Some _ _ _ Et) as Htl.
    destruct I. constructor; cbn [p_counts p_out p_thr]; auto.
    + by rewrite insert_length.
    + intros j bj Hj. rewrite fmap_app, sel_app, app_length. cbn [fmap list_fmap snd sel].
      destruct (Nat.eqb_spec j i) as [->|Hne].
      * rewrite list_lookup_insert by (rewrite pi_counts0; done). simpl. fold p.
        assert (bj = base) by congruence. f_equal. lia.
      * rewrite list_lookup_insert_ne by done. rewrite (pi_count0 j bj Hj). simpl. f_equal. lia.
    + rewrite fmap_app, <- app_assoc. cbn [fmap list_fmap snd app].
      rewrite <- pi_all0. f_equiv. symmetry. by eapply concat_insert.
    + by rewrite insert_length.
    + intros t' prog' pend' H. rewrite sel_app. cbn [sel].
      apply list_lookup_insert_Some in H as [(->&[= <- <-]&_)|[Hne H]].
      * rewrite Nat.eqb_refl, <- app_assoc. cbn. by eapply pi_thr0.
      * replace (t' =? t) with false by (symmetry; apply Nat.eqb_neq; done). rewrite app_nil_r. eauto.
    + intros t' e H. apply elem_of_app in H as [H|H]; [eauto|]. apply elem_of_list_singleton in H.
      injection H as -> ->. lia.
    + intros t' prog' d v' H. rewrite fmap_app. cbn [fmap list_fmap snd].
      apply list_lookup_insert_Some in H as [(->&Heq&_)|[Hne H]].
      * destruct (sl i p) as [d0|] eqn:Es; [|done]. cbn in Heq. injection Heq as <- <- <-.
        exists i, p. split; [|done]. rewrite sel_app. cbn [sel]. rewrite Nat.eqb_refl.
        rewrite lookup_app_r by done. rewrite Nat.sub_diag. done.
      * destruct (pi_pend0 _ _ _ _ H) as (i'&p'&H1&H2). exists i', p'. split; [|done].
        rewrite sel_app, lookup_app_l by (by eapply lookup_lt_Some). done.
    + intros j q w d Hw Hd. rewrite fmap_app, sel_app in Hw. cbn [fmap list_fmap snd sel] in Hw.
      apply lookup_app_Some in Hw as [Hw|[Hge Hw]].
      * destruct (pi_done0 _ _ _ _ Hw Hd) as [?|(t'&prog'&Ht')]; [by left|right].
        exists t', prog'. rewrite list_lookup_insert_ne; [done|]. intros ->. rewrite Et in Ht'. congruence.
      * destruct (Nat.eqb_spec j i) as [->|]; [|done].
        apply list_lookup_singleton_Some in Hw as [Hq ->].
        assert (q = p) as -> by (unfold p; lia). right. exists t, prog.
        rewrite list_lookup_insert by done. rewrite Hd. done.
Qed.

Lemma prun_inv ts : forall s tr, PInv s tr -> exists s' tr', prun slot ts s = Some s' /\ PInv s' tr'.
Proof.
  induction ts as [|t ts IH]; intros s tr I; [by exists s, tr|].
  cbn [prun]. destruct (pstep_inv s tr t I) as (s1&tr1&->&I1). simplo. eauto.
Qed.

Lemma pinit_inv : PInv (pinit counts0 out0 progs) [].
Proof.
  constructor; cbn [pinit p_counts p_out p_thr]; auto.
  - intros i base H. simpl. rewrite Nat.add_0_r. done.
  - simpl. change (map (fun p => (p, None)) progs) with ((fun p => (p, @None (nat * A))) <$> progs).
    rewrite <- list_fmap_compose. replace (fst ∘ _) with (@id (list (nat * A))) by done. by rewrite list_fmap_id.
  - by rewrite map_length.
  - intros t prog pend H. change (map ?f progs) with (f <$> progs) in H. rewrite list_lookup_fmap in H.
    destruct (progs !! t); [|done]. injection H as <- <-. done.
  - intros t e H. by apply elem_of_nil in H.
  - intros t prog d v H. change (map ?f progs) with (f <$> progs) in H. rewrite list_lookup_fmap in H.
    destruct (progs !! t); done.
  - intros i p v d H. done.
Qed.

(** The state after a complete pass. *)
Definition PassDone (s : pstate A) : Prop := exists tr,
    length (p_counts s) = length counts0 /\
    (forall i base, counts0 !! i = Some base -> p_counts s !! i = Some (base + total i)) /\
    length (p_out s) = length out0 /\
    (snd <$> tr) ≡ₚ concat progs /\
    (forall t prog, progs !! t = Some prog -> sel t tr = prog) /\
    (forall t e, (t, e) ∈ tr -> t < length progs) /\
    (forall i p v d, sel i (snd <$> tr) !! p = Some v -> sl i p = Some d -> p_out s !! d = Some (Some v)) /\
    (forall d, (forall i p, i < length counts0 -> p < total i -> sl i p <> Some d) -> p_out s !! d = out0 !! d).

Lemma pass_done s tr : PInv s tr -> pfinished s = true -> PassDone s.
Proof.
  intros I Hf.
  assert (forall t th, p_thr s !! t = Some th -> th = ([], None)) as Hdone.
  { intros t th Ht. unfold pfinished in Hf. rewrite forallb_forall in Hf.
    specialize (Hf th). destruct th as [[|x prog] [y|]]; try done; exfalso;
    assert (false = true); try done; apply Hf; apply elem_of_list_In; by eapply elem_of_list_lookup_2. }
  assert (concat (fst <$> p_thr s) = []) as Hnil.
  { destruct (concat (fst <$> p_thr s)) as [|e l] eqn:Ec; [done|].
    assert (In e (concat (fst <$> p_thr s))) as Hin by (rewrite Ec; by left).
    apply in_concat in Hin as (x&Hx&Hex). apply elem_of_list_In, elem_of_list_fmap in Hx as (th&->&Hth).
    apply elem_of_list_lookup in Hth as [t Ht]. apply Hdone in Ht as ->. done. }
  exists tr. pose proof (pi_all _ _ I) as Ha. rewrite Hnil, app_nil_r in Ha.
  split; [apply I|]. split; [|split; [apply I|split; [done|split; [|split; [apply I|split; [|apply I]]]]]].
  - intros i base H. rewrite (pi_count _ _ I i base H). unfold total. do 2 f_equal.
    apply Permutation_length, sel_perm. done.
  - intros t prog Ht. assert (t < length (p_thr s)) as Hl.
    { rewrite (pi_len _ _ I). by eapply lookup_lt_Some. }
    apply lookup_lt_is_Some_2 in Hl as [[pr pe] Hth]. pose proof (Hdone _ _ Hth) as [= -> ->].
    pose proof (pi_thr _ _ I _ _ _ Hth) as H. rewrite app_nil_r in H. congruence.
  - intros i p v d Hv Hd. destruct (pi_done _ _ I i p v d Hv Hd) as [?|(t&prog&Ht)]; [done|].
    by apply Hdone in Ht.
Qed.

Lemma pass_ok ts : exists s, prun slot ts (pinit counts0 out0 progs) = Some s /\ (pfinished s = true -> PassDone s).
Proof.
  destruct (prun_inv ts _ _ pinit_inv) as (s&tr&E&I). exists s. split; [done|]. by eapply pass_done.
Qed.
End Pass.

(** ** The whole query *)
Lemma perm_lookup n perm i : perm ≡ₚ seq 0 n -> i < n -> exists q, perm !! i = Some q /\ q < n.
Proof.
  intros HP Hi. assert (length perm = n) by (rewrite HP; apply seq_length).
  destruct (lookup_lt_is_Some_2 perm i) as [q Hq]; [lia|]. exists q. split; [done|].
  apply elem_of_list_lookup_2 in Hq. rewrite HP in Hq. apply elem_of_seq in Hq. lia.
Qed.
Lemma perm_lookup_inv n perm q : perm ≡ₚ seq 0 n -> q < n -> exists i, perm !! i = Some q /\ i < n.
Proof.
  intros HP Hq. assert (length perm = n) as Hl by (rewrite HP; apply seq_length).
  assert (q ∈ perm) as Hin by (rewrite HP; apply elem_of_seq; lia).
  apply elem_of_list_lookup in Hin as [i Hi]. exists i. split; [done|]. apply lookup_lt_Some in Hi. lia.
Qed.
Lemma perm_inj n perm i j q : perm ≡ₚ seq 0 n -> perm !! i = Some q -> perm !! j = Some q -> i = j.
Proof. intros HP. apply NoDup_lookup. rewrite HP. apply NoDup_seq. Qed.

Lemma lens_caps {A} (R : list (list A)) : forall caps, length caps = length R ->
  (forall q c r, caps !! q = Some c -> R !! q = Some r -> length r <= c) ->
  sum_list (length <$> R) <= sum_list caps /\ (sum_list caps <= sum_list (length <$> R) -> caps = length <$> R).
Proof.
  induction R as [|r R IH]; intros [|c caps] Hc H; try done.
  pose proof (H 0 c r eq_refl eq_refl). injection Hc as Hc.
  destruct (IH caps Hc) as [H1 H2]. { intros q. apply (H (S q)). }
  rewrite fmap_cons. change (sum_list (?x :: ?l)) with (x + sum_list l). split; [lia|].
  intros Hle. f_equal; [lia|]. apply H2. lia.
Qed.

Section Query.
Context {A : Type}.
Variables (R : list (list A)) (perm : list nat).
Notation n := (length R).
Notation lens := (length <$> R).
Hypothesis HP : perm ≡ₚ seq 0 n.

Let Hlp : length perm = n.
Proof. rewrite HP. apply seq_length. Qed.

Lemma inserts_sel progs i q r : InsertsAny R perm progs -> perm !! i = Some q -> R !! q = Some r ->
  sel i (concat progs) ≡ₚ r.
Proof.
  intros HI Hi Hq. rewrite (sel_perm i _ _ HI).
  rewrite (sel_imap (fun q => default [] (R !! q)) perm i q Hi 0), Hq. done.
Qed.

Lemma inserts_idx progs i v : InsertsAny R perm progs -> (i, v) ∈ concat progs -> i < n.
Proof.
  intros HI Hin. rewrite HI in Hin. apply elem_of_list_In, in_concat in Hin as (x&Hx&Hv).
  apply elem_of_list_In, elem_of_lookup_imap in Hx as (k&q&->&Hk).
  apply elem_of_list_In, elem_of_list_fmap in Hv as (w&[= -> ->]&_). apply lookup_lt_Some in Hk. lia.
Qed.

Lemma lens_lookup q : q < n -> exists r, R !! q = Some r /\ lens !! q = Some (length r).
Proof.
  intros Hq. destruct (lookup_lt_is_Some_2 R q Hq) as [r Hr]. exists r. split; [done|].
  by rewrite list_lookup_fmap, Hr.
Qed.

Lemma by_query_any progs : InsertsByQuery R perm progs -> InsertsAny R perm progs.
Proof. intros ->. unfold InsertsAny. reflexivity. Qed.

Lemma sel_snd i (tr : list (nat * (nat * A))) :
  (forall t e, (t, e) ∈ tr -> fst e = t) -> sel i (snd <$> tr) = snd <$> sel i tr.
Proof.
  induction tr as [|[t [j v]] tr IH]; intros H; [done|].
  assert (j = t) by (apply (H t (j, v)); left). subst j.
  cbn [fmap list_fmap snd sel]. rewrite IH by (intros; apply H; by right). by destruct (i =? t).
Qed.

Lemma sel_elem t e (tr : list (nat * (nat * A))) : (t, e) ∈ tr -> e ∈ sel t tr.
Proof.
  induction tr as [|[u f] tr IH]; intros H; [by apply elem_of_nil in H|].
  cbn [sel]. apply elem_of_cons in H as [[= -> ->]|H].
  - rewrite Nat.eqb_refl. left.
  - destruct (t =? u); [right|]; auto.
Qed.

Lemma trace_by_query progs tr i q r : InsertsByQuery R perm progs ->
  (forall t prog, progs !! t = Some prog -> sel t tr = prog) ->
  (forall t e, (t, e) ∈ tr -> t < length progs) ->
  perm !! i = Some q -> R !! q = Some r -> sel i (snd <$> tr) = r.
Proof.
  intros -> Ht Hk Hi Hr. rewrite sel_snd.
  - rewrite (Ht i (pair i <$> r)).
    + rewrite <- list_fmap_compose. replace (snd ∘ pair i) with (@id A) by done. apply list_fmap_id.
    + rewrite list_lookup_imap, Hi. simpl. by rewrite Hr.
  - intros t e He. pose proof (Hk _ _ He) as Hlt. rewrite imap_length in Hlt.
    destruct (lookup_lt_is_Some_2 perm t Hlt) as [q' Hq'].
    apply sel_elem in He. rewrite (Ht t (pair t <$> default [] (R !! q'))) in He.
    + apply elem_of_list_fmap in He as (w&->&_). done.
    + by rewrite list_lookup_imap, Hq'.
Qed.

(** Which values end up where is a rearrangement of the results, query by query. *)
Lemma answer_of_trace progs tr (out : list (option A)) : InsertsAny R perm progs ->
  (snd <$> tr) ≡ₚ concat progs ->
  (forall t prog, progs !! t = Some prog -> sel t tr = prog) ->
  (forall t e, (t, e) ∈ tr -> t < length progs) ->
  length out = sum_list lens ->
  (forall i q p v, perm !! i = Some q -> sel i (snd <$> tr) !! p = Some v ->
     out !! (sum_list (take q lens) + p) = Some (Some v)) ->
  exists L, Forall2 (fun l r => l ≡ₚ r) L R /\ out = map Some (concat L) /\ (InsertsByQuery R perm progs -> L = R).
Proof.
  intros HI Htr Ht Hk Hlen Hout.
  set (inv q := default 0 (fst <$> list_find (eq q) perm)).
  assert (forall q, q < n -> perm !! inv q = Some q) as Hinv.
  { intros q Hq. destruct (perm_lookup_inv n perm q HP Hq) as (i&Hi&_).
    destruct (list_find_elem_of (eq q) perm q) as [[j x] Hj]; [by eapply elem_of_list_lookup_2|done|].
    unfold inv. rewrite Hj. apply list_find_Some in Hj as (Hj&->&_). done. }
  set (L := map (fun q => sel (inv q) (snd <$> tr)) (seq 0 n)).
  assert (forall q, q < n -> L !! q = Some (sel (inv q) (snd <$> tr))) as HL.
  { intros q Hq. unfold L. change (map ?f ?l) with (f <$> l). rewrite list_lookup_fmap, lookup_seq_lt by done. done. }
  assert (length L = n) as HlL by (unfold L; by rewrite map_length, seq_length).
  assert (Forall2 (fun l r => l ≡ₚ r) L R) as HF.
  { apply Forall2_same_length_lookup_2; [done|]. intros q l r Hl Hr.
    pose proof (lookup_lt_Some _ _ _ Hr) as Hq. rewrite HL in Hl by done. injection Hl as <-.
    rewrite (sel_perm _ _ _ Htr). eapply inserts_sel; eauto. }
  assert (length <$> L = lens) as HlenL.
  { clear -HF. induction HF as [|l r L R H _ IH]; [done|]. rewrite !fmap_cons, IH. f_equal. by apply Permutation_length. }
  exists L. split; [done|]. split.
  - apply array_concat; rewrite HlenL; [done|]. intros q l p v Hl Hv.
    assert (q < n) as Hq by (apply lookup_lt_Some in Hl; lia).
    rewrite HL in Hl by done. injection Hl as <-. eapply Hout; [|exact Hv]. by apply Hinv.
  - intros HQ. apply list_eq. intros q. destruct (Nat.lt_ge_cases q n) as [Hq|Hq].
    + rewrite HL by done. destruct (lens_lookup q Hq) as (r&Hr&_). rewrite Hr. f_equal.
      eapply trace_by_query; eauto.
    + rewrite !lookup_ge_None_2; [done|done|lia].
Qed.

Lemma any_opt_spec (f : nat -> option bool) (g : nat -> bool) l :
  (forall i, i ∈ l -> f i = Some (g i)) -> any_opt f l = Some (existsb g l).
Proof.
  induction l as [|i l IH]; intros H; [done|]. cbn [any_opt existsb].
  rewrite H by left. simplo. rewrite IH by (intros; apply H; by right). done.
Qed.

Lemma copy_one_ok o p src : forall js tmp, NoDup js ->
  (forall j, j ∈ js -> p + j < length src /\ o + j < length tmp) ->
  exists tmp', copy_one (A:=A) o p js src tmp = Some tmp' /\ length tmp' = length tmp /\
    (forall j, j ∈ js -> tmp' !! (o + j) = src !! (p + j)) /\
    (forall d, (forall j, j ∈ js -> d <> o + j) -> tmp' !! d = tmp !! d).
Proof.
  induction js as [|j js IH]; intros tmp ND H.
  { exists tmp. split; [done|]. split; [done|]. split; [|done]. intros j Hj. by apply elem_of_nil in Hj. }
  apply NoDup_cons in ND as [Hnj ND]. destruct (H j) as [H1 H2]; [left|].
  destruct (lookup_lt_is_Some_2 src _ H1) as [v Hv]. cbn [copy_one]. rewrite Hv. simplo.
  rewrite wr_Some by done. simplo.
  destruct (IH (<[o+j:=v]> tmp) ND) as (tmp'&E&L&W&F).
  { intros k Hk. rewrite insert_length. apply H. by right. }
  exists tmp'. split; [done|]. rewrite insert_length in L. split; [done|]. split.
  - intros k Hk. apply elem_of_cons in Hk as [->|Hk]; [|auto].
    rewrite F. { by rewrite list_lookup_insert. }
    intros k Hk He. assert (k = j) by lia. by subst.
  - intros d Hd. rewrite F. { rewrite list_lookup_insert_ne; [done|]. specialize (Hd j). intros Hx. apply Hd; [left|done]. }
    intros k Hk. apply Hd. by right.
Qed.

Lemma copy_values_ok (offset pre : list nat) (caps : list nat) (src : list (option A)) :
  length caps = n -> (forall q, q <= n -> offset !! q = Some (sum_list (take q lens))) ->
  (forall q, q <= n -> pre !! q = Some (sum_list (take q caps))) ->
  sum_list caps <= length src ->
  (forall q c r, caps !! q = Some c -> R !! q = Some r -> length r <= c) ->
  forall order tmp, NoDup order -> (forall i, i ∈ order -> i < n) -> sum_list lens <= length tmp ->
  exists tmp', copy_values offset pre order src tmp = Some tmp' /\ length tmp' = length tmp /\
    (forall q r p, q ∈ order -> R !! q = Some r -> p < length r ->
       tmp' !! (sum_list (take q lens) + p) = src !! (sum_list (take q caps) + p)) /\
    (forall q r p, q ∉ order -> R !! q = Some r -> p < length r ->
       tmp' !! (sum_list (take q lens) + p) = tmp !! (sum_list (take q lens) + p)).
Proof.
  intros Hc Ho Hp Hsrc Hle. induction order as [|i order IH]; intros tmp ND Hlt Htmp.
  { exists tmp. split; [done|]. split; [done|]. split; [|done]. intros q r p Hq. by apply elem_of_nil in Hq. }
  apply NoDup_cons in ND as [Hni ND]. pose proof (Hlt i ltac:(left)) as Hi.
  destruct (lens_lookup i Hi) as (r&Hr&Hlr).
  destruct (lookup_lt_is_Some_2 caps i) as [c Hci]; [lia|]. pose proof (Hle _ _ _ Hci Hr) as Hrc.
  cbn [copy_values]. rewrite (Ho i), (Ho (S i)), (Hp i) by lia. simplo.
  rewrite (sum_take_S _ _ _ Hlr).
  replace (sum_list (take i lens) + length r - sum_list (take i lens)) with (length r) by lia.
  destruct (copy_one_ok (sum_list (take i lens)) (sum_list (take i caps)) src (seq 0 (length r)) tmp)
    as (tmp1&E1&L1&W1&F1).
  { apply NoDup_seq. }
  { intros j Hj. apply elem_of_seq in Hj. split.
    - pose proof (layout_lt caps i j c Hci). lia.
    - pose proof (layout_lt lens i j _ Hlr). lia. }
  rewrite E1. simplo.
  destruct (IH tmp1 ND) as (tmp'&E&L&W&F).
  { intros k Hk. apply Hlt. by right. }
  { lia. }
  exists tmp'. split; [done|]. split; [lia|].
  assert (forall q r' p, q <> i -> R !! q = Some r' -> p < length r' ->
    tmp1 !! (sum_list (take q lens) + p) = tmp !! (sum_list (take q lens) + p)) as Hother.
  { intros q r' p Hq Hr' Hpr. apply F1. intros j Hj Heq. apply elem_of_seq in Hj. apply Hq.
    eapply (layout_inj lens q i p j (length r') (length r)); eauto; [|lia]. by rewrite list_lookup_fmap, Hr'. }
  split.
  - intros q r' p Hq Hr' Hpr. apply elem_of_cons in Hq as [->|Hq]; [|eauto].
    rewrite (F i r' p Hni Hr' Hpr). assert (r' = r) by congruence. subst. apply W1. apply elem_of_seq. lia.
  - intros q r' p Hq Hr' Hpr. rewrite (F q r' p); [|intros Hx; apply Hq; by right|done|done].
    eapply Hother; eauto. intros ->. apply Hq. left.
Qed.

Definition OrdersOk (m : machine A) : Prop :=
  m_order1 m ≡ₚ seq 0 n /\ m_order2 m ≡ₚ seq 0 n /\ m_order3 m ≡ₚ seq 0 n.

(** Every order, every schedule, every distribution of the insertions. *)
Lemma queryImpl_ok m st (out0 : list (option A)) offset0 caps :
  OrdersOk m -> InsertsAny R perm (m_prog1 m) -> InsertsAny R perm (m_prog2 m) ->
  length caps = n -> length offset0 = S n ->
  (st <> PreallocationNone -> forall q, q <= n -> offset0 !! q = Some (sum_list (take q caps))) ->
  (st <> PreallocationNone -> sum_list caps = length out0 \/ sum_list caps = 0) ->
  match queryImpl m n perm st out0 offset0 with
  | UB => False
  | Unfinished => True
  | Thrown => st = PreallocationHard /\ exists q c r, caps !! q = Some c /\ R !! q = Some r /\ c < length r
  | Done out offset =>
    (st = PreallocationHard -> forall q c r, caps !! q = Some c -> R !! q = Some r -> length r <= c) /\
    IsOffsets R offset /\
    exists L, Forall2 (fun l r => l ≡ₚ r) L R /\ out = map Some (concat L) /\
      (InsertsByQuery R perm (m_prog1 m) -> InsertsByQuery R perm (m_prog2 m) -> L = R)
  end.
Proof.
  intros (HO1&HO2&HO3) HI1 HI2 Hcaps Hlo Hoff Hsum. unfold queryImpl.
  set (slot1 := match st with PreallocationNone => slot_count | _ => slot_first offset0 perm end).
  set (sl1 := fun i p => match st with PreallocationNone => None | _ =>
     match perm !! i with None => None | Some q =>
       if p <? default 0 (caps !! q) then Some (sum_list (take q caps) + p) else None end end).
  assert (forall i base, replicate n 0 !! i = Some base -> base = 0 /\ i < n) as Hrep.
  { intros i base H. by apply lookup_replicate in H. }
  destruct (pass_ok slot1 sl1 (replicate n 0) out0 (m_prog1 m)) with (ts := m_sched1 m) as (s1&Es1&Hs1).
  { intros i v Hin. rewrite replicate_length. eapply inserts_idx; [|exact Hin]; done. }
  { intros i base p Hb Hp. apply Hrep in Hb as [-> Hi]. destruct (perm_lookup n perm i HP Hi) as (q&Hq&Hqn).
    assert (st = PreallocationNone \/ st <> PreallocationNone) as [->|Hst] by (destruct st; auto).
    { unfold slot1, sl1. done. }
    destruct (lookup_lt_is_Some_2 caps q) as [c Hc]; [lia|].
    replace (slot1 i (0 + p)) with (slot_first offset0 perm i (0 + p)) by (unfold slot1; by destruct st).
    replace (sl1 i p) with (if p <? c then Some (sum_list (take q caps) + p) else None)
      by (unfold sl1; rewrite Hq, Hc; by destruct st).
    unfold slot_first. rewrite Hq. simplo. rewrite (Hoff Hst q), (Hoff Hst (S q)) by lia. simplo.
    rewrite (sum_take_S _ _ _ Hc).
    replace (sum_list (take q caps) + c - sum_list (take q caps)) with c by lia. simpl.
    split; [done|]. intros d. destruct (Nat.ltb_spec p c) as [Hpc|]; [|done]. intros [= <-].
    pose proof (layout_lt caps q p c Hc Hpc). destruct (Hsum Hst); lia. }
  { intros i j p q d Hi Hj _ _. rewrite replicate_length in *.
    destruct (perm_lookup n perm i HP Hi) as (qi&Hqi&Hqin).
    destruct (perm_lookup n perm j HP Hj) as (qj&Hqj&Hqjn).
    assert (st = PreallocationNone \/ st <> PreallocationNone) as [->|Hst] by (destruct st; auto).
    { unfold sl1. done. }
    destruct (lookup_lt_is_Some_2 caps qi) as [ci Hci]; [lia|].
    destruct (lookup_lt_is_Some_2 caps qj) as [cj Hcj]; [lia|].
    replace (sl1 i p) with (if p <? ci then Some (sum_list (take qi caps) + p) else None)
      by (unfold sl1; rewrite Hqi, Hci; by destruct st).
    replace (sl1 j q) with (if q <? cj then Some (sum_list (take qj caps) + q) else None)
      by (unfold sl1; rewrite Hqj, Hcj; by destruct st).
    destruct (Nat.ltb_spec p ci); [|done]. destruct (Nat.ltb_spec q cj); [|done].
    intros E1 E2. injection E1 as E1. injection E2 as E2.
    destruct (layout_inj caps qj qi q p cj ci) as [Hqq ->]; auto; [congruence|]. subst qj.
    split; [exact (perm_inj n perm i j qi HP Hqi Hqj)|done]. }
  rewrite Es1. cbn [ok]. destruct (pfinished s1) eqn:Ef; cbn [negb]; [|done].
  destruct (Hs1 eq_refl) as (tr&Hlc&Hcnt&Hlout&Htr&Hth&Hkey&Hdone&_). clear Hs1.
  rewrite replicate_length in Hlc.
  assert (forall i q r, perm !! i = Some q -> R !! q = Some r -> p_counts s1 !! i = Some (length r)) as Hcount.
  { intros i q r Hi Hr. assert (i < n) by (apply lookup_lt_Some in Hi; lia).
    rewrite (Hcnt i 0) by (by apply lookup_replicate_2). f_equal. simpl.
    apply Permutation_length. eapply inserts_sel; eauto. }
  (* overflow *)
  set (g := fun i => match perm !! i with None => false | Some q =>
      default 0 (caps !! q) <? length (default [] (R !! q)) end).
  assert (st <> PreallocationNone -> any_opt (overflow_at offset0 perm (p_counts s1)) (seq 0 n) =
     Some (existsb g (seq 0 n))) as Hany.
  { intros Hst. apply any_opt_spec. intros i Hi. apply elem_of_seq in Hi.
    destruct (perm_lookup n perm i HP ltac:(lia)) as (q&Hq&Hqn).
    destruct (lookup_lt_is_Some_2 caps q) as [c Hc]; [lia|]. destruct (lens_lookup q Hqn) as (r&Hr&_).
    unfold overflow_at, g. rewrite Hq. simplo. rewrite (Hoff Hst q), (Hoff Hst (S q)) by lia. simplo.
    rewrite (Hcount i q r Hq Hr), Hc, Hr. simplo. cbn [default]. rewrite (sum_take_S _ _ _ Hc).
    replace (sum_list (take q caps) + c - sum_list (take q caps)) with c by lia. done. }
  set (ovf := match st with PreallocationNone => true | _ => existsb g (seq 0 n) end).
  replace (match st with PreallocationNone => Some true | _ => any_opt (overflow_at offset0 perm (p_counts s1)) (seq 0 n) end)
    with (Some ovf) by (unfold ovf; destruct st; [done| |]; by rewrite Hany).
  cbn [ok].
  assert (st <> PreallocationNone -> ovf = false -> forall q c r, caps !! q = Some c -> R !! q = Some r -> length r <= c) as Hno.
  { intros Hst Hovf q c r Hc Hr. assert (existsb g (seq 0 n) = false) as He by (unfold ovf in Hovf; by destruct st).
    assert (q < n) as Hqn by (by eapply lookup_lt_Some). destruct (perm_lookup_inv n perm q HP Hqn) as (i&Hi&Hin).
    destruct (Nat.le_gt_cases (length r) c); [done|]. exfalso.
    assert (existsb g (seq 0 n) = true); [|congruence]. apply existsb_exists. exists i. split.
    - apply elem_of_list_In, elem_of_seq. lia.
    - unfold g. rewrite Hi, Hc, Hr. cbn [default]. apply Nat.ltb_lt. done. }
  assert (st <> PreallocationNone -> ovf = true -> exists q c r, caps !! q = Some c /\ R !! q = Some r /\ c < length r) as Hyes.
  { intros Hst Hovf. assert (existsb g (seq 0 n) = true) as He by (unfold ovf in Hovf; by destruct st).
    apply existsb_exists in He as (i&Hi&Hg). apply elem_of_list_In, elem_of_seq in Hi.
    destruct (perm_lookup n perm i HP ltac:(lia)) as (q&Hq&Hqn). unfold g in Hg. rewrite Hq in Hg.
    destruct (lookup_lt_is_Some_2 caps q) as [c Hc]; [lia|]. destruct (lens_lookup q Hqn) as (r&Hr&_).
    rewrite Hc, Hr in Hg. cbn [default] in Hg. apply Nat.ltb_lt in Hg. eauto 10. }
  (* offsets *)
  destruct (par_writes_correct (fun i => perm !! i) (fun i => p_counts s1 !! i) (m_order1 m) offset0)
    as (offset1&Eo1&Lo1&Wo1&_).
  { rewrite HO1. apply NoDup_seq. }
  { intros i Hi. rewrite HO1 in Hi. apply elem_of_seq in Hi.
    destruct (perm_lookup n perm i HP ltac:(lia)) as (q&Hq&Hqn). destruct (lens_lookup q Hqn) as (r&Hr&_).
    exists q, (length r). split; [done|]. split; [eauto|lia]. }
  { intros i j d _ _ H1 H2. exact (perm_inj n perm i j d HP H1 H2). }
  rewrite Eo1. cbn [ok].
  assert (forall q, q <= n -> take q offset1 = take q lens) as Htake.
  { intros q Hq. apply list_eq. intros k. destruct (Nat.lt_ge_cases k q).
    - rewrite !lookup_take by done. destruct (perm_lookup_inv n perm k HP ltac:(lia)) as (i&Hi&Hin).
      destruct (lens_lookup k ltac:(lia)) as (r&Hr&Hlr). rewrite Hlr.
      rewrite (Wo1 i k); [eauto|rewrite HO1; apply elem_of_seq; lia|done].
    - rewrite !lookup_take_ge by done. done. }
  assert (forall q, q <= n -> excl_scan 0 offset1 !! q = Some (sum_list (take q lens))) as Hoff2.
  { intros q Hq. rewrite excl_scan_lookup by lia. rewrite Htake by done. f_equal. }
  set (offset2 := excl_scan 0 offset1) in *.
  assert (length offset2 = S n) as Ll by (unfold offset2; rewrite excl_scan_length; lia).
  assert (IsOffsets R offset2) as HIO.
  { split; [done|]. intros q Hq. rewrite length_concat_take. auto. }
  rewrite last_lookup, Ll. cbn [Nat.pred]. rewrite Hoff2 by done. cbn [ok].
  assert (sum_list (take n lens) = sum_list lens) as Hall.
  { rewrite take_ge; [done|]. by rewrite fmap_length. }
  rewrite Hall. clear Hall.
  destruct (Nat.eqb_spec (sum_list lens) 0) as [Hz|Hnz].
  { (* no results *)
    assert (forall q r, R !! q = Some r -> r = []) as Hnil.
    { intros q r Hr. destruct r as [|x r]; [done|]. exfalso.
      pose proof (layout_lt lens q 0 (S (length r))). rewrite list_lookup_fmap, Hr in H. specialize (H eq_refl). lia. }
    split. { intros _ q c r _ Hr. rewrite (Hnil _ _ Hr). simpl. lia. }
    split; [done|]. exists R. split; [apply Forall2_same_length_lookup_2; [done|]; intros q l r H1 H2; assert (l = r) as -> by congruence; done|]. split; [|done].
    assert (concat R = []) as ->; [|done]. apply nil_length_inv. rewrite length_concat. done. }
  assert (sum_list (p_counts s1) = sum_list lens) as Hsc.
  { assert (p_counts s1 ≡ₚ lens) as Hpm; [|by rewrite Hpm].
    assert (p_counts s1 = (fun q => default 0 (lens !! q)) <$> perm) as ->.
    { apply list_eq. intros i. rewrite list_lookup_fmap. destruct (Nat.lt_ge_cases i n) as [Hi|Hi].
      - destruct (perm_lookup n perm i HP Hi) as (q&Hq&Hqn). destruct (lens_lookup q Hqn) as (r&Hr&Hlr).
        rewrite (Hcount i q r Hq Hr), Hq. cbn. by rewrite Hlr.
      - rewrite !lookup_ge_None_2 by lia. done. }
    rewrite HP. replace (seq 0 n) with (seq 0 (length lens)) by (by rewrite fmap_length).
    assert (((fun q => default 0 (lens !! q)) <$> seq 0 (length lens)) = lens) as ->; [|done].
    apply list_eq. intros i. rewrite list_lookup_fmap. destruct (Nat.lt_ge_cases i (length lens)) as [Hi|Hi].
    - rewrite lookup_seq_lt by done. cbn. destruct (lookup_lt_is_Some_2 lens i Hi) as [x Hx]. by rewrite Hx.
    - rewrite lookup_seq_ge by done. by rewrite lookup_ge_None_2. }
  destruct (decide (ovf = true)) as [Hovf|Hovf].
  { (* second pass *)
    rewrite Hovf. cbn [orb].
    assert (st = PreallocationHard \/ st <> PreallocationHard) as [Hhard|Hnh] by (destruct st; auto).
    { subst st. split; [done|]. apply Hyes; done. }
    destruct (par_writes_correct (fun i => Some i) (fun i => q ← perm !! i; offset2 !! q) (m_order2 m) (p_counts s1))
      as (counts2&Ec2&Lc2&Wc2&_).
    { rewrite HO2. apply NoDup_seq. }
    { intros i Hi. rewrite HO2 in Hi. apply elem_of_seq in Hi.
      destruct (perm_lookup n perm i HP ltac:(lia)) as (q&Hq&Hqn).
      exists i, (sum_list (take q lens)). split; [done|]. rewrite Hq. simplo. split; [apply Hoff2; lia|lia]. }
    { intros i j d _ _ [= ->] [= ->]. done. }
    assert (forall i q, perm !! i = Some q -> counts2 !! i = Some (sum_list (take q lens))) as Hc2.
    { intros i q Hi. assert (i < n) by (apply lookup_lt_Some in Hi; lia).
      rewrite (Wc2 i i); [|rewrite HO2; apply elem_of_seq; lia|done]. rewrite Hi. simplo. apply Hoff2.
      apply elem_of_list_lookup_2 in Hi. rewrite HP in Hi. apply elem_of_seq in Hi. lia. }
    replace (match st with PreallocationHard => Thrown | _ => _ end) with
      (ok (par_writes (λ i : nat, Some i) (λ i : nat, perm !! i ≫= λ q, offset2 !! q) (m_order2 m) (p_counts s1)) (fun counts2 =>
      ok (prun slot_second (m_sched2 m) (pinit counts2 (replicate (sum_list lens) None) (m_prog2 m))) (fun s2 =>
      if negb (pfinished s2) then Unfinished else Done (p_out s2) offset2))) by (by destruct st).
    rewrite Ec2. cbn [ok].
    set (sl2 := fun i p => match perm !! i with None => None | Some q => Some (sum_list (take q lens) + p) end).
    assert (forall i q r, perm !! i = Some q -> R !! q = Some r -> length (sel i (concat (m_prog2 m))) = length r) as Htot.
    { intros i q r Hq Hr. apply Permutation_length. eapply inserts_sel; eauto. }
    destruct (pass_ok slot_second sl2 counts2 (replicate (sum_list lens) None) (m_prog2 m)) with (ts := m_sched2 m)
      as (s2&Es2&Hs2).
    { intros i v Hin. rewrite Lc2, Hlc. eapply inserts_idx; [|exact Hin]; done. }
    { intros i base p Hb Hp. assert (i < n) as Hi by (apply lookup_lt_Some in Hb; lia).
      destruct (perm_lookup n perm i HP Hi) as (q&Hq&Hqn). destruct (lens_lookup q Hqn) as (r&Hr&Hlr).
      rewrite (Htot i q r Hq Hr) in Hp. rewrite (Hc2 i q Hq) in Hb. injection Hb as <-.
      unfold slot_second, sl2. rewrite Hq. split; [done|]. intros d [= <-]. rewrite replicate_length.
      by apply (layout_lt lens q p (length r)). }
    { intros i j p p' d Hi Hj Hp Hp'. rewrite Lc2, Hlc in Hi, Hj.
      destruct (perm_lookup n perm i HP Hi) as (qi&Hqi&Hqin). destruct (lens_lookup qi Hqin) as (ri&Hri&Hlri).
      destruct (perm_lookup n perm j HP Hj) as (qj&Hqj&Hqjn). destruct (lens_lookup qj Hqjn) as (rj&Hrj&Hlrj).
      rewrite (Htot i qi ri Hqi Hri) in Hp. rewrite (Htot j qj rj Hqj Hrj) in Hp'.
      unfold sl2. rewrite Hqi, Hqj. intros E1 E2. injection E1 as E1. injection E2 as E2.
      destruct (layout_inj lens qj qi p' p (length rj) (length ri)) as [Hqq ->]; auto; [congruence|]. subst qj.
      split; [exact (perm_inj n perm i j qi HP Hqi Hqj)|done]. }
    rewrite Es2. cbn [ok]. destruct (pfinished s2) eqn:Ef2; cbn [negb]; [|done].
    destruct (Hs2 eq_refl) as (tr2&_&_&Hlout2&Htr2&Hth2&Hkey2&Hdone2&_).
    rewrite replicate_length in Hlout2.
    split; [done|]. split; [done|].
    destruct (answer_of_trace (m_prog2 m) tr2 (p_out s2)) as (L&HF&Hout&HB); auto.
    { intros i q p v Hq Hv. eapply Hdone2; eauto. unfold sl2. by rewrite Hq. }
    exists L. auto. }
  apply not_true_is_false in Hovf. rewrite Hovf. cbn [orb].
  assert (st <> PreallocationNone) as Hst by (intros ->; done).
  replace (match st with PreallocationNone => true | _ => false end) with false by (by destruct st).
  specialize (Hno Hst Hovf).
  assert (sum_list lens <= sum_list caps) as Hle.
  { exact (proj1 (lens_caps R caps Hcaps Hno)). }
  assert (sum_list caps = length out0) as Hso by (destruct (Hsum Hst); lia).
  assert (forall i q p v, perm !! i = Some q -> sel i (snd <$> tr) !! p = Some v ->
     p_out s1 !! (sum_list (take q caps) + p) = Some (Some v) /\ p < length (default [] (R !! q))) as Hplaced.
  { intros i q p v Hq Hv. assert (q < n) as Hqn.
    { apply elem_of_list_lookup_2 in Hq. rewrite HP in Hq. apply elem_of_seq in Hq. lia. }
    destruct (lens_lookup q Hqn) as (r&Hr&_). destruct (lookup_lt_is_Some_2 caps q) as [c Hc]; [lia|].
    assert (p < length r) as Hpr.
    { apply lookup_lt_Some in Hv. rewrite (Permutation_length (sel_perm i _ _ Htr)) in Hv.
      rewrite (Permutation_length (inserts_sel _ _ _ _ HI1 Hq Hr)) in Hv. done. }
    pose proof (Hno _ _ _ Hc Hr). rewrite Hr. cbn [default]. split; [|done].
    eapply Hdone; eauto. unfold sl1. rewrite Hq, Hc. cbn [default]. change (id c) with c.
    replace (p <? c) with true by (symmetry; apply Nat.ltb_lt; lia). by destruct st. }
  cbn [negb andb].
  destruct (Nat.ltb_spec (sum_list (p_counts s1)) (length (p_out s1))) as [Hu|Hu].
  - (* compression *)
    destruct (copy_values_ok offset2 offset0 caps (p_out s1)) with (order := m_order3 m) (tmp := replicate (sum_list lens) (@None A))
      as (tmp&Et&Lt&Wt&_); auto.
    { lia. }
    { rewrite HO3. apply NoDup_seq. }
    { intros i Hi. rewrite HO3 in Hi. apply elem_of_seq in Hi. lia. }
    { by rewrite replicate_length. }
    rewrite replicate_length in Lt. rewrite Et. cbn [ok].
    split; [done|]. split; [done|].
    destruct (answer_of_trace (m_prog1 m) tr tmp) as (L&HF&Hout&HB); auto.
    { intros i q p v Hq Hv. destruct (Hplaced i q p v Hq Hv) as [Hp1 Hp2].
      assert (q < n) as Hqn.
      { apply elem_of_list_lookup_2 in Hq. rewrite HP in Hq. apply elem_of_seq in Hq. lia. }
      destruct (lens_lookup q Hqn) as (r&Hr&_). rewrite Hr in Hp2. cbn [default] in Hp2.
      rewrite (Wt q r p); [done|rewrite HO3; apply elem_of_seq; lia|done|done]. }
    exists L. auto.
  - (* exactly enough *)
    assert (caps = lens) as ->.
    { apply (proj2 (lens_caps R caps Hcaps Hno)). lia. }
    split; [done|]. split; [done|].
    destruct (answer_of_trace (m_prog1 m) tr (p_out s1)) as (L&HF&Hout&HB); auto.
    { lia. }
    { intros i q p v Hq Hv. apply (Hplaced i q p v Hq Hv). }
    exists L. auto.
Qed.
End Query.

(** ** Completion *)
Definition thr_work {A} (th : option (list (nat * A) * option (nat * A))) : nat :=
  match th with None => 0 | Some (prog, None) => 2 * length prog | Some (prog, Some _) => S (2 * length prog) end.

Lemma pstep_work {A} slot (s s' : pstate A) t u : pstep slot s t = Some s' ->
  thr_work (p_thr s' !! u) <= thr_work (p_thr s !! u) - (if t =? u then 1 else 0).
Proof.
  unfold pstep. destruct (p_thr s !! t) as [[prog pend]|] eqn:Et.
  2:{ intros [= <-]. destruct (Nat.eqb_spec t u) as [->|]; [rewrite Et; simpl|]; lia. }
  assert (t < length (p_thr s)) as Hl by (by eapply lookup_lt_Some).
  destruct pend as [[d v]|].
  - intros H. assert (exists out', s' = PState (p_counts s) out' (<[t:=(prog, None)]> (p_thr s))) as [out' ->].
    { destruct prog as [|[? ?] ?]; destruct (wr (p_out s) d (Some v)); simpl in H; try done; injection H as <-; eauto. }
    cbn [p_thr]. destruct (Nat.eqb_spec t u) as [->|].
    + rewrite list_lookup_insert, Et by done. simpl. lia.
    + rewrite list_lookup_insert_ne by done. lia.
  - destruct prog as [|[i v] prog].
    { intros [= <-]. destruct (Nat.eqb_spec t u) as [->|]; [rewrite Et; simpl|]; lia. }
    destruct (p_counts s !! i) as [old|]; simpl; [|done]. destruct (slot i old) as [sl|]; simpl; [|done].
    intros [= <-]. cbn [p_thr]. destruct (Nat.eqb_spec t u) as [->|].
    + rewrite list_lookup_insert, Et by done. destruct sl; simpl; lia.
    + rewrite list_lookup_insert_ne by done. lia.
Qed.

Lemma prun_work {A} slot ts u : forall (s s' : pstate A), prun slot ts s = Some s' ->
  thr_work (p_thr s' !! u) <= thr_work (p_thr s !! u) - count_occ Nat.eq_dec ts u.
Proof.
  induction ts as [|t ts IH]; intros s s' H; cbn [prun] in H. { injection H as <-. simpl. lia. }
  destruct (pstep slot s t) as [s1|] eqn:E; [|done]. simpl in H.
  pose proof (pstep_work _ _ _ _ u E). pose proof (IH _ _ H). cbn [count_occ].
  destruct (Nat.eq_dec t u) as [->|Hne].
  - rewrite Nat.eqb_refl in *. lia.
  - apply Nat.eqb_neq in Hne. rewrite Hne in *. lia.
Qed.

Lemma prun_finish {A} slot ts counts out (progs : list (list (nat * A))) s :
  prun slot ts (pinit counts out progs) = Some s -> Fair progs ts -> pfinished s = true.
Proof.
  intros H HF. unfold pfinished. apply forallb_forall. intros th Hin.
  apply elem_of_list_In, elem_of_list_lookup in Hin as [t Ht].
  pose proof (prun_work slot ts t _ _ H) as Hw. rewrite Ht in Hw. cbn [pinit p_thr] in Hw.
  change (map ?f progs) with (f <$> progs) in Hw. rewrite list_lookup_fmap in Hw.
  assert (thr_work (Some th) = 0) as Hz.
  { destruct (progs !! t) as [prog|] eqn:Ep.
    - specialize (HF t prog Ep). change (thr_work (_ <$> Some prog)) with (2 * length prog) in Hw. lia.
    - change (thr_work (_ <$> None)) with 0 in Hw. lia. }
  destruct th as [[|? ?] [?|]]; simpl in Hz; try lia.
Qed.

Lemma queryImpl_finish {A} (m : machine A) n perm st out0 offset0 :
  Fair (m_prog1 m) (m_sched1 m) -> Fair (m_prog2 m) (m_sched2 m) ->
  queryImpl m n perm st out0 offset0 <> Unfinished.
Proof.
  intros H1 H2. unfold queryImpl.
  destruct (prun _ (m_sched1 m) _) as [s1|] eqn:E1; cbn [ok]; [|done].
  rewrite (prun_finish _ _ _ _ _ _ E1 H1). cbn [negb].
  destruct (match st with PreallocationNone => _ | _ => _ end) as [ovf|]; cbn [ok]; [|done].
  destruct (par_writes _ _ (m_order1 m) _) as [o1|]; cbn [ok]; [|done].
  destruct (list.last _) as [nr|]; cbn [ok]; [|done].
  destruct (nr =? 0); [done|].
  destruct (ovf || _).
  - destruct st; try done.
    all: destruct (par_writes _ _ (m_order2 m) _) as [c2|]; cbn [ok]; [|done].
    all: destruct (prun _ (m_sched2 m) _) as [s2|] eqn:E2; cbn [ok]; [|done].
    all: rewrite (prun_finish _ _ _ _ _ _ E2 H2); done.
  - destruct (_ && _); [|done]. destruct (copy_values _ _ _ _ _); done.
Qed.
