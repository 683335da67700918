(** From the vertices to the edges, and the whole generator. *)
From Verif Require Import SurfaceModel SurfaceSpec SurfaceProof SurfaceSplitProof.
Local Open Scope nat_scope.

Record EdgeOk (s : edge_state) : Prop := {
  eo_index : s_index s = length (s_edges s);
  eo_hash : forall k i, s_hash s !! k = Some i <-> s_edges s !! i = Some k;
  eo_lt : forall i k, s_edges s !! i = Some k -> k.1 < k.2 }.
Lemma EdgeOk_nil : EdgeOk (EdgeState ∅ [] 0).
Proof. constructor; simpl; [done| |done]. intros k i. rewrite lookup_empty. done. Qed.
Definition ext (s s' : edge_state) : Prop := exists l, s_edges s' = s_edges s ++ l.
Lemma ext_refl s : ext s s.
Proof. exists []. by rewrite app_nil_r. Qed.
Lemma ext_trans s s' s'' : ext s s' -> ext s' s'' -> ext s s''.
Proof. intros [l E] [l' E']. exists (l ++ l'). by rewrite E', E, app_assoc. Qed.
Lemma ext_joins s s' i u v : ext s s' -> joins (s_edges s) i u v -> joins (s_edges s') i u v.
Proof. intros [l E] [H|H]; [left|right]; rewrite E; by apply lookup_app_l_Some. Qed.
Lemma ext_tri s s' t a b c : ext s s' -> tri_at (s_edges s) t a b c -> tri_at (s_edges s') t a b c.
Proof. intros HE [H0 H1 H2 N1 N2 N3]. split; try done; by eapply ext_joins. Qed.

Lemma side_ok s x y s' i : EdgeOk s -> x <> y -> side_index s x y = (s', i) ->
  EdgeOk s' /\ ext s s' /\ joins (s_edges s') i x y /\ forall e, e < length (s_edges s') -> e < length (s_edges s) \/ e = i.
Proof.
  intros HO Hxy E. unfold side_index in E. set (k := minmax x y) in E. assert (k.1 < k.2 /\ (k = (x, y) \/ k = (y, x))) as [Hlt Hk] by (unfold k, minmax; destruct (Nat.ltb_spec y x); simpl; split; try lia; tauto). clearbody k.
  destruct (s_hash s !! k) as [j|] eqn:Eh; injection E as <- <-.
  - split; [done|]. split; [apply ext_refl|]. split; [|tauto]. apply (eo_hash _ HO) in Eh. destruct Hk as [-> | ->]; [by left|by right].
  - rewrite (eo_index _ HO). assert (EdgeOk (EdgeState (<[k:=length (s_edges s)]> (s_hash s)) (s_edges s ++ [k]) (S (length (s_edges s))))) as HO'.
    { constructor; simpl.
      - rewrite app_length. simpl. lia.
      - intros k' i. destruct (decide (k = k')) as [<-|Hn].
        + rewrite lookup_insert. split; [intros [= <-]; by rewrite lookup_app_r, Nat.sub_diag by lia|]. intros Hi. apply lookup_app_Some in Hi as [Hi|[Hge Hi]]; [apply (eo_hash _ HO) in Hi; congruence|].
          apply list_lookup_singleton_Some in Hi as [Hi _]. f_equal. lia.
        + rewrite lookup_insert_ne by done. rewrite (eo_hash _ HO). split; [intros Hi; by apply lookup_app_l_Some|]. intros Hi. apply lookup_app_Some in Hi as [Hi|[_ Hi]]; [done|]. apply list_lookup_singleton_Some in Hi as [_ Hi]. done.
      - intros i k' Hi. apply lookup_app_Some in Hi as [Hi|[_ Hi]]; [by apply (eo_lt _ HO) in Hi|]. apply list_lookup_singleton_Some in Hi as [_ <-]. done. }
    split; [done|]. split; [by exists [k]|]. simpl. split; [|rewrite app_length; simpl; lia].
    assert ((s_edges s ++ [k]) !! length (s_edges s) = Some k) as Hl by (by rewrite lookup_app_r, Nat.sub_diag by lia). destruct Hk as [-> | ->]; [by left|by right].
Qed.
Lemma triangle_edges_ok s t s' t' : EdgeOk s -> NoDup (corners t) -> triangle_edges s t = (s', t') ->
  EdgeOk s' /\ ext s s' /\ same (s_edges s') t t' /\ forall e, e < length (s_edges s') -> e < length (s_edges s) \/ e ∈ corners t'.
Proof.
  destruct t as [[a b] c]. simpl. intros HO HN E. assert (a <> b /\ b <> c /\ c <> a) as (N1 & N2 & N3) by (rewrite !NoDup_cons, !elem_of_cons, !elem_of_nil in HN; naive_solver).
  destruct (side_index s a b) as [s1 x] eqn:E1. destruct (side_index s1 b c) as [s2 y] eqn:E2. destruct (side_index s2 c a) as [s3 z] eqn:E3. injection E as <- <-.
  destruct (side_ok _ _ _ _ _ HO N1 E1) as (O1 & X1 & J1 & K1). destruct (side_ok _ _ _ _ _ O1 N2 E2) as (O2 & X2 & J2 & K2). destruct (side_ok _ _ _ _ _ O2 N3 E3) as (O3 & X3 & J3 & K3).
  split; [done|]. split; [eapply ext_trans; [|exact X3]; by eapply ext_trans|]. split.
  - exists a, b, c. split; [|done]. split; simpl; try done; eapply ext_joins; try exact X3; [|done]. by eapply ext_joins.
  - intros e He. cbn [corners]. rewrite !elem_of_cons. destruct (K3 e He) as [H| ->]; [|tauto]. destruct (K2 e H) as [H'| ->]; [|tauto]. destruct (K1 e H') as [?| ->]; tauto.
Qed.
Lemma edge_loop_ok ts : forall s s' ets, EdgeOk s -> (forall t, t ∈ ts -> NoDup (corners t)) -> edge_loop s ts = (s', ets) ->
  EdgeOk s' /\ ext s s' /\ Forall2 (same (s_edges s')) ts ets /\ forall e, e < length (s_edges s') -> e < length (s_edges s) \/ exists t, t ∈ ets /\ e ∈ corners t.
Proof.
  induction ts as [|t ts IH]; intros s s' ets HO HN E; simpl in E.
  - injection E as <- <-. split; [done|]. split; [apply ext_refl|]. split; [constructor|]. tauto.
  - destruct (triangle_edges s t) as [s1 t'] eqn:E1. destruct (edge_loop s1 ts) as [s2 ts'] eqn:E2. injection E as <- <-.
    destruct (triangle_edges_ok _ _ _ _ HO (HN t ltac:(left)) E1) as (O1 & X1 & S1 & K1). destruct (IH _ _ _ O1 (fun t Ht => HN t ltac:(by right)) E2) as (O2 & X2 & S2 & K2).
    split; [done|]. split; [by eapply ext_trans|]. split.
    + constructor; [|done]. destruct S1 as (a & b & c & HT & HP). exists a, b, c. split; [by eapply ext_tri|done].
    + intros e He. destruct (K2 e He) as [H|(t0 & H0 & H1)]; [|right; exists t0; split; [by right|done]]. destruct (K1 e H) as [?|?]; [by left|]. right. exists t'. split; [left|done].
Qed.

Lemma mult_ge ts t e : t ∈ ts -> e ∈ corners t -> 1 <= mult ts e.
Proof.
  intros Ht He. induction ts as [|t' ts IH]; [by apply not_elem_of_nil in Ht|]. unfold mult in *. simpl. apply elem_of_cons in Ht as [->|Ht]; [|specialize (IH Ht); lia].
  rewrite elem_of_list_In in He. apply (count_occ_In Nat.eq_dec) in He. lia.
Qed.
Section Build.
Variables (n : nat) (ts : list tri).
Hypothesis HS : Surface n ts.
Lemma edge_form_ok : exists es ets, edge_form ts = (es, ets) /\ Inv n es ets /\ Forall2 (same es) ts ets.
Proof.
  unfold edge_form. destruct (edge_loop (EdgeState ∅ [] 0) ts) as [s ets] eqn:E. destruct (edge_loop_ok ts _ _ _ EdgeOk_nil (su_distinct _ _ HS) E) as (HO & _ & HF & HK). simpl in HK.
  exists (s_edges s), ets. split; [done|]. split; [|done].
  assert (forall e, e < length (s_edges s) -> exists k vt et, ts !! k = Some vt /\ ets !! k = Some et /\ same (s_edges s) vt et /\ e ∈ corners et) as HE.
  { intros e He. destruct (HK e He) as [?|(et & Het & Hc)]; [lia|]. apply elem_of_list_lookup in Het as [k Het]. destruct (Forall2_lookup_r _ _ _ _ _ HF Het) as (vt & ? & ?). by exists k, vt, et. }
  assert (forall i j u v, joins (s_edges s) i u v -> joins (s_edges s) j u v -> i = j) as HU.
  { assert (forall i j k, s_edges s !! i = Some k -> s_edges s !! j = Some k -> i = j) as H1 by (intros i j k Hi Hj; apply (eo_hash _ HO) in Hi, Hj; congruence).
    intros i j u v [Hi|Hi] [Hj|Hj]; try by eapply H1. all: apply (eo_lt _ HO) in Hi, Hj; simpl in *; lia. }
  assert (forall i u v, joins (s_edges s) i u v -> u <> v) as HN by (intros i u v [Hi|Hi]; apply (eo_lt _ HO) in Hi; simpl in Hi; lia).
  constructor.
  - intros i u v Hj. destruct (HE i (joins_lt _ _ _ _ Hj)) as (k & vt & et & Hk & _ & (a & b & c & HT & HP) & Hi). destruct (tri_vertex _ _ _ _ _ _ _ _ HT Hi Hj) as (Hu & _ & ?). split; [done|].
    eapply (su_range _ _ HS vt); [by eapply elem_of_list_lookup_2|by rewrite HP].
  - exact HU.
  - intros et Het. apply elem_of_list_lookup in Het as [k Het]. destruct (Forall2_lookup_r _ _ _ _ _ HF Het) as (vt & _ & a & b & c & ? & _). by exists a, b, c.
  - intros k k' et et' x y Hk Hk' Hxy Hx Hy Hx' Hy'. destruct (Forall2_lookup_r _ _ _ _ _ HF Hk) as (vt & Hv & a & b & c & HT & HP). destruct (Forall2_lookup_r _ _ _ _ _ HF Hk') as (vt' & Hv' & a' & b' & c' & HT' & HP').
    apply (su_once _ _ HS k k' vt vt' Hv Hv'). rewrite HP, HP'. pose proof HT as [H0 H1 H2 N1 N2 N3]. pose proof HT' as [_ _ _ N1' N2' N3'].
    assert (a ∈ [a'; b'; c'] /\ b ∈ [a'; b'; c'] /\ c ∈ [a'; b'; c']) as (Ia & Ib & Ic).
    { assert (forall e u v, (e = x \/ e = y) -> joins (s_edges s) e u v -> u ∈ [a'; b'; c']) as Hg.
      { intros e u v [-> | ->] Hj; [by destruct (tri_vertex _ _ _ _ _ _ _ _ HT' Hx' Hj)|by destruct (tri_vertex _ _ _ _ _ _ _ _ HT' Hy' Hj)]. }
      destruct et as [[e0 e1] e2]. simpl in *. rewrite !elem_of_cons, elem_of_nil in Hx, Hy. 
      destruct Hx as [->|[->|[->|[]]]], Hy as [->|[->|[->|[]]]]; try done; split_and!; first [apply (Hg e0 a b); [tauto|exact H0]|apply (Hg e0 b a); [tauto|by apply joins_sym]|apply (Hg e1 b c); [tauto|exact H1]|apply (Hg e1 c b); [tauto|by apply joins_sym]|apply (Hg e2 c a); [tauto|exact H2]|apply (Hg e2 a c); [tauto|by apply joins_sym]]. }
    clear -Ia Ib Ic N1 N2 N3 N1' N2' N3'. rewrite !elem_of_cons, !elem_of_nil in Ia, Ib, Ic. 
    destruct Ia as [->|[->|[->|[]]]], Ib as [->|[->|[->|[]]]], Ic as [->|[->|[->|[]]]]; try done; try by repeat constructor. all: by repeat first [reflexivity|rewrite (perm_swap a')|rewrite (perm_swap b')|rewrite (perm_swap c')|apply perm_skip].
  - intros e He. destruct (HE e He) as (k & vt & et & Hk & Hk' & HT & Hi). destruct (lookup_lt_is_Some_2 _ _ He) as [[u v] Huv]. assert (joins (s_edges s) e u v) as Hj by (by left).
    split; [eapply mult_ge; [by eapply elem_of_list_lookup_2|done]|]. rewrite <- (around_mult _ _ _ e u v HU HF (HN _ _ _ Hj) Hj). by apply (su_around _ _ HS), (HN _ _ _ Hj).
  - intros v Hv. destruct (su_used _ _ HS v Hv) as (vt & Hvt & Hc). apply elem_of_list_lookup in Hvt as [k Hvt]. destruct (same_lookup _ _ _ _ _ HF Hvt) as (et & _ & a & b & c & [H0 H1 H2 _ _ _] & HP). rewrite HP, !elem_of_cons, elem_of_nil in Hc.
    destruct Hc as [->|[->|[->|[]]]]; by eauto.
Qed.
Lemma edge_closed es ets : Inv n es ets -> Forall2 (same es) ts ets -> Closed ts -> InvClosed es ets.
Proof.
  intros HI HF HC e He. destruct (lookup_lt_is_Some_2 _ _ He) as [[u v] Huv]. assert (joins es e u v) as Hj by (by left). destruct (v_edge _ _ _ HI _ _ _ Hj) as [Hn _].
  pose proof (v_mult _ _ _ HI e He) as HM. specialize (HC u v Hn). rewrite (around_mult _ _ _ e u v (v_uniq _ _ _ HI) HF Hn Hj) in HC. lia.
Qed.
Lemma edge_connected es ets : Inv n es ets -> Forall2 (same es) ts ets -> Connected ts -> InvConnected ets.
Proof.
  intros HI HF HC i j Hi Hj. rewrite <- (Forall2_length _ _ _ HF) in Hi, Hj. specialize (HC i j Hi Hj). clear Hi Hj. induction HC as [i|i k j Hm _ IH]; [done|]. apply rtc_l with k; [|done].
  destruct Hm as (t & t' & u & v & Ht & Ht' & Huv & Iu & Iv & Iu' & Iv'). destruct (same_lookup _ _ _ _ _ HF Ht) as (et & He & a & b & c & HT & HP). destruct (same_lookup _ _ _ _ _ HF Ht') as (et' & He' & a' & b' & c' & HT' & HP').
  rewrite HP in Iu, Iv. rewrite HP' in Iu', Iv'. destruct (tri_edge _ _ _ _ _ _ _ HT Huv Iu Iv) as (e & Ie & Je). destruct (tri_edge _ _ _ _ _ _ _ HT' Huv Iu' Iv') as (e' & Ie' & Je'). rewrite <- (v_uniq _ _ _ HI _ _ _ _ Je Je') in Ie'.
  by exists et, et', e.
Qed.
End Build.

Section Refine.
Context {P : Type} (mid : P -> P -> P).
Lemma refine_ok r m : MInv m -> exists m', refine mid r m = Some m' /\ MInv m' /\
  length (m_triangles m') = 4 ^ r * length (m_triangles m) /\ 2 * length (m_edges m') + 3 * 2 ^ r * length (m_triangles m) = 2 * 2 ^ r * length (m_edges m) + 3 * 4 ^ r * length (m_triangles m) /\
  2 * length (m_vertices m') + 2 * length (m_edges m) + 3 * 2 ^ r * length (m_triangles m) = 2 * length (m_vertices m) + 2 * 2 ^ r * length (m_edges m) + (4 ^ r + 2) * length (m_triangles m) /\
  (InvClosed (m_edges m) (m_triangles m) -> InvClosed (m_edges m') (m_triangles m')) /\ (InvConnected (m_triangles m) -> InvConnected (m_triangles m')).
Proof.
  intros HI. induction r as [|r (m1 & E1 & I1 & L1 & L2 & L3 & C1 & N1)].
  - exists m. split; [done|]. split; [done|]. simpl. split; [lia|]. split; [lia|]. split; [lia|]. tauto.
  - destruct (subdivide_ok mid m1 I1) as (m2 & E2 & I2 & K3 & K2 & K1 & C2 & N2). exists m2. simpl refine. rewrite E1. split; [exact E2|]. split; [done|]. rewrite K1, K2, K3. 
    rewrite !Nat.pow_succ_r'. split; [nia|]. split; [nia|]. split; [nia|]. tauto.
Qed.
Lemma build_ok n ts (vs : list P) r : Surface n ts -> length vs = n -> exists vs' ts', build mid vs ts r = Some (vs', ts') /\ Surface (length vs') ts' /\ length ts' = 4 ^ r * length ts /\
  2 * length vs' + 2 * length (edge_form ts).1 + 3 * 2 ^ r * length ts = 2 * length vs + 2 * 2 ^ r * length (edge_form ts).1 + (4 ^ r + 2) * length ts /\
  (Closed ts -> Closed ts') /\ (Connected ts -> Connected ts').
Proof.
  intros HS HL. destruct (edge_form_ok n ts HS) as (es & ets & E & HI & HF). unfold build. rewrite E. subst n. destruct (refine_ok r (Mesh vs es ets) HI) as (m & Em & Im & L1 & _ & L3 & HC & HN). rewrite Em. simpl in *.
  destruct (vertex_form_ok _ _ _ Im) as (vts & Ev & Fv). rewrite Ev. simpl. exists (m_vertices m), vts. split; [done|]. split; [by eapply inv_surface|]. rewrite <- (Forall2_length _ _ _ HF) in L1, L3. split; [by rewrite (Forall2_length _ _ _ Fv)|]. split; [done|].
  split; intros H; [eapply inv_closed; try done; apply HC; by eapply edge_closed|eapply inv_connected; try done; apply HN; by eapply edge_connected].
Qed.
End Refine.
