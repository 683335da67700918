(** The kernels of one Boruvka round after the search: smallest edge per component, new edges, new labels. *)
From Verif Require Export BoruvkaOrder.
Local Open Scope nat_scope.

Lemma u_index a : label_index (Z.of_nat a) = Some a.
Proof. unfold label_index. rewrite (proj2 (Z.leb_le _ _)) by lia. by rewrite Nat2Z.id. Qed.
Lemma mapM_zip {A B} (f : nat -> A -> option B) (l : list A) : forall k,
  (forall i a, l !! i = Some a -> is_Some (f (k + i) a)) ->
  exists l', mapM (fun '(i, a) => f i a) (zip (seq k (length l)) l) = Some l' /\ length l' = length l /\ forall i a b, l !! i = Some a -> l' !! i = Some b -> f (k + i) a = Some b.
Proof.
  induction l as [|a l IH]; intros k Hf; [by exists []|]. destruct (Hf 0 a eq_refl) as [b Hb]. rewrite Nat.add_0_r in Hb.
  destruct (IH (S k)) as (l' & El & Hl & Hs). { intros i x Hx. specialize (Hf (S i) x Hx). by rewrite <- Nat.add_succ_comm in Hf. }
  exists (b :: l'). cbn. rewrite Hb. cbn. rewrite El. cbn. split; [done|]. split; [by rewrite Hl|]. intros [|i] x y Hx Hy; cbn in *.
  - rewrite Nat.add_0_r. congruence.
  - rewrite <- Nat.add_succ_comm. by apply Hs.
Qed.

Section Update.
Context {W : Type} (ltb : W -> W -> bool) (SW : StrictWeak ltb) (inf : W) (wt : nat * nat -> W) (n : nat).
Hypothesis NB : (N.of_nat n <= 2 ^ 31)%N.
Hypothesis wt_sym : forall i j, i < n -> j < n -> i <> j -> weq ltb (wt (i, j)) (wt (j, i)) = true.
Hypothesis wt_inf : forall i j, i < n -> j < n -> i <> j -> ltb (wt (i, j)) inf = true.
Notation lt := (plt ltb wt).
Notation PO := (plt_order ltb SW wt n NB wt_sym).
Context (c : nat -> nat).
Hypothesis Hc : forall i, i < n -> c i < n.
Hypothesis Hcc : forall i, i < n -> c (c i) = c i.
Hypothesis Htwo : exists i j, i < n /\ j < n /\ c i <> c j.
Context (labels : list Z).
Hypothesis Hlab : forall i, i < n -> labels !! i = Some (Z.of_nat (c i)).
Notation best := (best n lt c).
Notation Out := (Out n c).
Notation Rep := (Rep n c).
Notation best_spec := (best_spec n lt PO c Hc Hcc Htwo).
Notation E := (edge_of wt).
Notation wb r := (wt (best r)).
(** word of the smallest edge of a component *)
Definition dst (r : nat) : N := pack (N.of_nat (best r).1) (N.of_nat (best r).2).

Lemma u_rep i : i < n -> Rep (c i). Proof. intros Hi. split; [by apply Hc|by apply Hcc]. Qed.
Lemma u_comp i : i < n -> component labels i = Some (c i).
Proof. intros Hi. unfold component. rewrite Hlab by done. cbn. apply u_index. Qed.
Lemma u_out r p : Out r p -> InN n p.
Proof. intros (? & ? & ? & ?). split_and!; [done..|]. intros E1. rewrite E1 in *. congruence. Qed.
Lemma u_best r : Rep r -> InN n (best r). Proof. intros Hr. eapply u_out. by apply best_spec. Qed.

Definition FromThread (i : nat) (b : dedge W) : Prop := b = no_edge inf \/ exists j, j < n /\ c j <> c i /\ b = E (i, j).
Lemma dst_le r i b : Rep r -> i < n -> c i = r -> FromThread i b -> weq ltb (weight b) (wb r) = true -> (dst r <= directed_edge b)%N.
Proof.
  intros Hr Hi Hci [->|(j & Hj & Hcj & ->)] Hw; pose proof (u_best r Hr) as HB.
  - cbn in Hw. destruct HB as (B1 & B2 & B3). apply weq_true in Hw as [_ Hw]. destruct (best r) as [x y]. cbn in *. by rewrite wt_inf in Hw.
  - cbn in *. destruct (best_spec r Hr) as [HO Hmin]. assert (Out r (i, j)) as Hij by (split_and!; cbn; congruence).
    apply (pack_le ltb SW wt n NB wt_sym (best r) (i, j)); [done|by eapply u_out|by rewrite weq_sym|by apply Hmin|]. intros E1. injection E1 as E1 E2.
    destruct HO as (_ & _ & _ & HO). rewrite <- E1 in HO. congruence.
Qed.

(** ** retrieveEdges *)
Context (ws : list W) (edges : list (dedge W)).
Hypothesis Hws : length ws = n /\ forall r, Rep r -> exists x, ws !! r = Some x /\ weq ltb x (wb r) = true.
Hypothesis Hedges : length edges = n /\ forall i b, edges !! i = Some b -> FromThread i b.
Hypothesis Hstar : forall r, Rep r -> edges !! (best r).1 = Some (E (best r)).

(** facts kept by the reduction *)
Definition Red (es : list (dedge W)) : Prop :=
  length es = n /\ (forall r e, Rep r -> es !! r = Some e -> weq ltb (weight e) (wb r) = true /\ (dst r <= directed_edge e)%N) /\
  (forall i e, i < n -> c i <> i -> es !! i = Some e -> FromThread i e) /\
  (forall r, Rep r -> (best r).1 <> r -> es !! (best r).1 = Some (E (best r))) /\
  (forall r e, Rep r -> (best r).1 = r -> es !! r = Some e -> directed_edge e = dst r).
Lemma reset_ok : exists es, reset_component_edges ltb labels ws edges = Some es /\ Red es.
Proof.
  destruct Hws as [HWL HW], Hedges as [HEL HE].
  destruct (mapM_zip (fun i e => li ← labels !! i; if negb (Z.of_nat i =? li)%Z then Some e
    else w ← ws !! i; Some (if weq ltb (weight e) w then e else DEdge ullong_max w)) edges 0) as (es & Ees & HL & Hs).
  { intros i e He. cbn [Nat.add]. pose proof (lookup_lt_Some _ _ _ He) as Hi. rewrite Hlab by lia. cbn [mbind option_bind]. destruct (negb _); [done|].
    destruct (lookup_lt_is_Some_2 ws i) as [w ->]; [lia|done]. }
  exists es. split; [exact Ees|]. rewrite HEL in HL. cbn [Nat.add] in Hs.
  assert (Hrep : forall r e e', Rep r -> edges !! r = Some e -> es !! r = Some e' -> exists w, weq ltb w (wb r) = true /\ e' = if weq ltb (weight e) w then e else DEdge ullong_max w).
  { intros r e e' Hr He He'. pose proof (Hs r e e' He He') as H. rewrite Hlab in H by apply Hr. cbn [mbind option_bind] in H. destruct Hr as [Hrn Hrc]. rewrite Hrc, Z.eqb_refl in H. cbn [negb] in H.
    destruct (HW r (conj Hrn Hrc)) as (x & Ex & Hx). rewrite Ex in H. cbn [mbind option_bind] in H. exists x. split; [done|]. congruence. }
  assert (Hnon : forall i e e', i < n -> c i <> i -> edges !! i = Some e -> es !! i = Some e' -> e' = e).
  { intros i e e' Hi Hci He He'. pose proof (Hs i e e' He He') as H. rewrite Hlab in H by done. cbn [mbind option_bind] in H. rewrite (proj2 (Z.eqb_neq _ _)) in H by lia. cbn [negb] in H. congruence. }
  split; [done|]. split; [|split; [|split]].
  - intros r e' Hr He'. destruct (lookup_lt_is_Some_2 edges r) as [e He]; [rewrite HEL; apply Hr|]. destruct (Hrep r e e' Hr He He') as (w & Hw & ->).
    destruct (weq ltb (weight e) w) eqn:Ew.
    + assert (weq ltb (weight e) (wb r) = true) as H by (by apply (weq_trans ltb SW _ w)). split; [done|]. destruct Hr as [Hrn Hrc]. by apply (dst_le r r); [| | |apply HE|].
    + split; [done|]. cbn [directed_edge]. unfold dst. destruct (u_best r Hr) as (B1 & B2 & _).
      destruct (C28_endpoints _ _ (vertex ltb wt n NB wt_sym _ B1) (vertex ltb wt n NB wt_sym _ B2)) as (_ & _ & ?). lia.
  - intros i e' Hi Hci He'. destruct (lookup_lt_is_Some_2 edges i) as [e He]; [by rewrite HEL|]. rewrite (Hnon i e e') by done. by apply HE.
  - intros r Hr Hne. destruct (u_best r Hr) as (B1 & _). destruct (lookup_lt_is_Some_2 es (best r).1) as [e' He']; [by rewrite HL|]. rewrite He'. f_equal.
    apply (Hnon (best r).1); [done| |by apply Hstar|done]. destruct (best_spec r Hr) as [(_ & _ & -> & _) _]. congruence.
  - intros r e' Hr Eb He'. pose proof (Hstar r Hr) as He. rewrite Eb in He. destruct (Hrep r _ e' Hr He He') as (w & Hw & ->).
    assert (weq ltb (weight (E (best r))) w = true) as -> by (cbn; by rewrite weq_sym). done.
Qed.

Definition estar (i : nat) : Prop := (best (c i)).1 = i.
Definition EThr (i : nat) (pc : epc) : Prop :=
  match pc with EStart | EDone => True | EMin r d => r = c i /\ (dst (c i) <= d)%N /\ (estar i -> d = dst (c i)) end.
Definition EInv (s : estate) : Prop :=
  Red (e_edges s) /\ length (e_thr s) = n /\ (forall i pc, e_thr s !! i = Some pc -> EThr i pc) /\
  (forall i, estar i -> e_thr s !! i = Some EDone -> forall e, e_edges s !! c i = Some e -> directed_edge e = dst (c i)).
Definition ephi (pc : epc) : nat := match pc with EStart => 2 | EMin _ _ => 1 | EDone => 0 end.
Definition OutOK (out : list (dedge W)) : Prop :=
  length out = n /\ forall r, Rep r -> exists x, out !! r = Some (DEdge (dst r) x) /\ weq ltb x (wb r) = true.
Lemma estep_ok s i : EInv s -> elive s i -> exists s', estep ltb labels ws s i = Some s' /\ EInv s' /\ sum_list_with ephi (e_thr s') < sum_list_with ephi (e_thr s).
Proof.
  intros (HR & HL & HT & HD) (pc & Hpc & Hne). assert (i < n) as Hi by (rewrite <- HL; by eapply lookup_lt_Some). pose proof (u_rep i Hi) as Hrep.
  unfold estep. rewrite Hpc. cbn [mbind option_bind]. pose proof (HT _ _ Hpc) as HTi. pose proof HR as (RL & RR & RN & RS & RB). destruct pc as [|r d|]; [| |done].
  - rewrite (u_comp i Hi). cbn [mbind option_bind]. destruct (proj2 Hws _ Hrep) as (w & Ew & Hw). rewrite Ew. cbn [mbind option_bind].
    destruct (lookup_lt_is_Some_2 (e_edges s) i) as [e He]; [by rewrite RL|]. rewrite He. cbn [mbind option_bind]. eexists. split; [done|].
    assert (Hst : estar i -> weq ltb (weight e) w = true /\ directed_edge e = dst (c i)).
    { intros HS. destruct (decide (c i = i)) as [Ei|Ei].
      - rewrite Ei in Hrep. destruct (RR i e Hrep He) as [H1 H2]. rewrite Ei in Hw |- *. split; [apply (weq_trans ltb SW _ (wb i)); [done|by rewrite weq_sym]|].
        apply RB; [done|unfold estar in HS; by rewrite Ei in HS|done].
      - pose proof (RS (c i) Hrep) as H. unfold estar in HS. rewrite HS in H. rewrite H in He by congruence. injection He as <-. cbn. split; [by rewrite weq_sym|done]. }
    split; unfold EInv; cbn [e_edges e_thr].
    + split; [done|]. split; [by rewrite insert_length|]. split.
      * intros k q Hq. destruct (upd_cases _ _ _ _ _ Hq) as [(-> & -> & _)|[_ ?]]; [|by apply HT].
        destruct (weq ltb (weight e) w) eqn:Eq; [|done]. assert (weq ltb (weight e) (wb (c i)) = true) as Hwb by (by apply (weq_trans ltb SW _ w)).
        cbn. split; [done|]. split; [|intros HS; by apply Hst]. destruct (decide (c i = i)) as [Ei|Ei].
        -- rewrite Ei in Hrep |- *. by apply RR.
        -- apply (dst_le (c i) i); try done. by apply RN.
      * intros k HS Hk. destruct (upd_cases _ _ _ _ _ Hk) as [(-> & Hq & _)|[_ Hk']]; [|by apply HD]. destruct (Hst HS) as [Hw1 _]. by rewrite Hw1 in Hq.
    + pose proof (sum_map_insert ephi (e_thr s) i _ (if weq ltb (weight e) w then EMin (c i) (directed_edge e) else EDone) Hpc) as Hs. cbn [ephi] in Hs.
      destruct (weq ltb (weight e) w); cbn [ephi] in Hs; lia.
  - destruct HTi as (-> & Hd & HdS). destruct (lookup_lt_is_Some_2 (e_edges s) (c i)) as [e He]; [rewrite RL; apply Hrep|]. rewrite He. cbn [mbind option_bind].
    destruct (RR _ _ Hrep He) as [H1 H2]. eexists. split; [done|]. split; unfold EInv; cbn [e_edges e_thr].
    + assert (Hnew : forall r e', Rep r -> <[c i := DEdge (N.min (directed_edge e) d) (weight e)]> (e_edges s) !! r = Some e' ->
        (r = c i /\ e' = DEdge (N.min (directed_edge e) d) (weight e)) \/ (r <> c i /\ e_edges s !! r = Some e')).
      { intros r e' Hr He'. destruct (upd_cases _ _ _ _ _ He') as [(-> & -> & _)|[? ?]]; auto. }
      split; [split; [by rewrite insert_length|split; [|split; [|split]]]|split; [by rewrite insert_length|split]].
      * intros r e' Hr He'. destruct (Hnew r e' Hr He') as [[-> ->]|[_ ?]]; [|by apply RR]. cbn. split; [done|]. lia.
      * intros k e' Hk Hck He'. destruct (upd_cases _ _ _ _ _ He') as [(-> & -> & _)|[_ ?]]; [|by apply RN]. destruct Hrep as [_ Hx]. done.
      * intros r Hr Hb. rewrite list_lookup_insert_ne; [by apply RS|]. intros Eb. apply Hb. destruct (best_spec r Hr) as [(_ & _ & Hx & _) _].
        rewrite <- Eb in Hx. destruct Hrep as [_ Hy]. rewrite Hy in Hx. congruence.
      * intros r e' Hr Hb He'. destruct (Hnew r e' Hr He') as [[-> ->]|[_ ?]]; [|by apply RB]. cbn. rewrite (RB _ e Hr Hb He). lia.
      * intros k q Hq. destruct (upd_cases _ _ _ _ _ Hq) as [(-> & -> & _)|[_ ?]]; [done|by apply HT].
      * intros k HS Hk e' He'. destruct (upd_cases _ _ _ _ _ He') as [(Ek & -> & _)|[Hck He'']]; cbn.
        -- destruct (upd_cases _ _ _ _ _ Hk) as [(-> & _ & _)|[_ Hk']].
           ++ rewrite (HdS HS). lia.
           ++ rewrite Ek. rewrite <- Ek in He. pose proof (HD k HS Hk' e He) as Hx. rewrite Hx, Ek. lia.
        -- destruct (upd_cases _ _ _ _ _ Hk) as [(-> & _ & _)|[_ Hk']]; [done|]. by apply (HD k).
    + pose proof (sum_map_insert ephi (e_thr s) i _ EDone Hpc) as Hs. cbn [ephi] in Hs. lia.
Qed.
Lemma reduce_edges_ok es : Red es -> Kernel (estep ltb labels ws) elive (EState es (replicate n EStart)) (fun s => OutOK (e_edges s)).
Proof.
  intros HR. apply (Kernel_inv _ _ _ _ EInv (fun s => sum_list_with ephi (e_thr s))).
  - split; [done|]. split; [apply replicate_length|]. cbn [e_thr]. split.
    + by intros i pc [-> _]%lookup_replicate.
    + by intros i _ [? _]%lookup_replicate.
  - intros s t s' _. unfold estep, elive. destruct (e_thr s !! t) as [pc|]; [|done]. intros Hs. exists pc. split; [done|]. by intros ->.
  - apply estep_ok.
  - intros s (HRs & HL & HT & HD) Hdead. split; [apply HRs|]. intros r Hr. pose proof (u_best r Hr) as (B1 & _). destruct (best_spec r Hr) as [(_ & _ & Hb & _) _].
    destruct (lookup_lt_is_Some_2 (e_thr s) (best r).1) as [pc Hpc]; [by rewrite HL|].
    assert (pc = EDone) as ->. { destruct pc; [| |done]; exfalso; apply (Hdead (best r).1); eexists; (split; [exact Hpc|done]). }
    destruct (lookup_lt_is_Some_2 (e_edges s) r) as [e He]; [destruct HRs as [-> _]; apply Hr|].
    assert (estar (best r).1) as HS by (unfold estar; by rewrite Hb). pose proof (HD _ HS Hpc) as Hx. rewrite Hb in Hx. specialize (Hx e He).
    destruct (proj1 (proj2 HRs) r e Hr He) as [Hw _]. exists (weight e). split; [|done]. rewrite He, <- Hx. by destruct e.
Qed.
End Update.

Section After.
Context {W : Type} (ltb : W -> W -> bool) (SW : StrictWeak ltb) (wt : nat * nat -> W) (n : nat).
Hypothesis NB : (N.of_nat n <= 2 ^ 31)%N.
Hypothesis wt_sym : forall i j, i < n -> j < n -> i <> j -> weq ltb (wt (i, j)) (wt (j, i)) = true.
Notation lt := (plt ltb wt).
Notation PO := (plt_order ltb SW wt n NB wt_sym).
Context (c : nat -> nat).
Hypothesis Hc : forall i, i < n -> c i < n.
Hypothesis Hcc : forall i, i < n -> c (c i) = c i.
Hypothesis Htwo : exists i j, i < n /\ j < n /\ c i <> c j.
Context (labels : list Z).
Hypothesis Hlab : forall i, i < n -> labels !! i = Some (Z.of_nat (c i)).
Notation best := (best n lt c).
Notation Out := (Out n c).
Notation Rep := (Rep n c).
Notation best_spec := (best_spec n lt PO c Hc Hcc Htwo).
Notation wb r := (wt (best r)).
(** ** What follows reads the smallest edges only *)
Notation u_rep := (u_rep n c Hc Hcc).
Notation u_comp := (u_comp n c labels Hlab).
Notation u_out := (u_out n c).
Notation u_best := (u_best ltb SW wt n NB wt_sym c Hc Hcc Htwo).
Notation dst := (dst ltb wt n c).
Context (out : list (dedge W)).
Hypothesis Hout : OutOK ltb wt n c out.
Definition LowB (c : nat -> nat) (lower : list W) : Prop := length lower = n /\ forall i j b, i < n -> j < n -> c j <> c i -> lower !! i = Some b -> ltb (wt (i, j)) b = false.
Lemma lower_ok lower : LowB c lower -> exists lower', update_lower_bounds ltb labels lower out = Some lower' /\ LowB c lower'.
Proof.
  intros [HL HB]. destruct (mapM_zip (fun i b => r ← component labels i; e ← out !! r; Some (wmax ltb b (weight e))) lower 0) as (l' & El & Hl & Hs).
  { intros i b Hb. cbn [Nat.add]. pose proof (lookup_lt_Some _ _ _ Hb). rewrite u_comp by lia. cbn [mbind option_bind]. destruct (proj2 Hout (c i)) as (x & -> & _); [apply u_rep; lia|]. done. }
  exists l'. split; [exact El|]. split; [congruence|]. cbn [Nat.add] in Hs. intros i j b' Hi Hj Hcij Hb'. destruct (lookup_lt_is_Some_2 lower i) as [b Hb]; [lia|].
  pose proof (Hs i b b' Hb Hb') as H. rewrite u_comp in H by lia. cbn [mbind option_bind] in H. pose proof (u_rep i Hi) as Hr. destruct (proj2 Hout (c i) Hr) as (x & Ex & Hx). rewrite Ex in H. cbn [mbind option_bind weight] in H.
  injection H as <-. unfold wmax. destruct (ltb b x); [|by apply (HB i j)]. destruct (best_spec _ Hr) as [HO Hmin].
  assert (Out (c i) (i, j)) as HOij by by split_and!. apply (w_trans ltb SW _ (wb (c i))); [by apply weq_true in Hx as [_ ?]|].
  apply (plt_weight ltb SW wt n NB wt_sym); [by eapply u_out|by eapply u_out|by apply Hmin].
Qed.
Notation nxt := (nxt n lt c).
Notation step := (step n lt c).
Notation fin := (fin n lt c).
Lemma next_ok ls r : Rep r -> next_of out ls r = (z ← ls !! (best r).2; label_index z).
Proof.
  intros Hr. unfold next_of. destruct (proj2 Hout r Hr) as (x & -> & _). cbn [mbind option_bind directed_edge]. unfold dst. destruct (u_best r Hr) as (B1 & B2 & _).
  destruct (C28_endpoints _ _ (vertex ltb wt n NB wt_sym _ B1) (vertex ltb wt n NB wt_sym _ B2)) as (_ & -> & _). by rewrite Nat2N.id.
Qed.
Lemma next_labels r : Rep r -> next_of out labels r = Some (nxt r).
Proof. intros Hr. rewrite next_ok by done. destruct (u_best r Hr) as (_ & B2 & _). rewrite Hlab by done. cbn. apply u_index. Qed.
Lemma next_comp r : Rep r -> next_component labels out r = Some (step r).
Proof.
  intros Hr. unfold next_component. rewrite next_labels by done. cbn [mbind option_bind]. destruct (nxt_rep n lt PO c Hc Hcc Htwo r Hr) as [Hn _]. rewrite next_labels by done. cbn [mbind option_bind].
  unfold resolve, BoruvkaGraph.step. by destruct (nxt (nxt r) =? r).
Qed.

(** ** The new edges *)
Context (num0 : nat) (edges0 : list (wedge W)).
Hypothesis Hnum : num0 + comps n c = n.
Hypothesis Hlen : length edges0 = n - 1.
Notation Adds := (Adds n lt c).
(** the edge added for a component *)
Definition IsEdge (r : nat) (e : wedge W) : Prop :=
  w_source e = N.of_nat (best r).1 /\ w_target e = N.of_nat (best r).2 /\ weq ltb (w_weight e) (wb r) = true.
Lemma adds_bound order : NoDup order -> (forall r, r ∈ order -> Adds r) -> num0 + length order <= n - 1.
Proof.
  intros HD HO. set (full := base.filter Adds (seq 0 n)).
  assert (forall r, r ∈ full <-> Adds r) as Hfull. { intros r. unfold full. rewrite elem_of_list_filter, elem_of_seq. split; [tauto|]. intros Hr. split; [done|]. destruct Hr as [[? _] _]. lia. }
  assert (NoDup full) as HDf by (apply NoDup_filter, NoDup_seq).
  pose proof (comps_split n lt PO c Hc Hcc Htwo full HDf Hfull) as H1. pose proof (comps_pos n lt PO c Hc Hcc Htwo) as H2.
  assert (length order <= length full) as H3. { apply submseteq_length, NoDup_submseteq; [done|]. intros r Hr. by apply Hfull, HO. } lia.
Qed.
Definition AThr (order : list nat) (edges : list (wedge W)) (i : nat) (pc : @apc W) : Prop :=
  match pc with
  | AStart => i ∉ order
  | AInc e => Adds i /\ i ∉ order /\ IsEdge i e
  | AWrite back e => IsEdge i e /\ exists k, order !! k = Some i /\ back = num0 + k
  | ADone => Adds i -> exists k e, order !! k = Some i /\ edges !! (num0 + k) = Some e /\ IsEdge i e
  end.
Definition AInv (s : astate) : Prop := exists order,
  NoDup order /\ (forall r, r ∈ order -> Adds r) /\ a_num s = num0 + length order /\ length (a_edges s) = n - 1 /\ length (a_thr s) = n /\
  take num0 (a_edges s) = take num0 edges0 /\ forall i pc, a_thr s !! i = Some pc -> AThr order (a_edges s) i pc.
Definition aphi (pc : @apc W) : nat := match pc with AStart => 3 | AInc _ => 2 | AWrite _ _ => 1 | ADone => 0 end.
Lemma astep_ok s i : AInv s -> alive s i -> exists s', astep labels out s i = Some s' /\ AInv s' /\ sum_list_with aphi (a_thr s') < sum_list_with aphi (a_thr s).
Proof.
  intros (order & HD & HO & HN & HE & HL & HTk & HT) (pc & Hpc & Hne). assert (i < n) as Hi by (rewrite <- HL; by eapply lookup_lt_Some). pose proof (u_rep i Hi) as Hrep.
  pose proof (HT _ _ Hpc) as HTi. unfold astep. rewrite Hpc. cbn [mbind option_bind].
  assert (Hpot : forall pc', aphi pc' < aphi pc -> sum_list_with aphi (<[i := pc']> (a_thr s)) < sum_list_with aphi (a_thr s)).
  { intros pc' Hlt. pose proof (sum_map_insert aphi (a_thr s) i pc pc' Hpc). lia. }
  destruct pc as [|e|back e|]; [| | |done].
  - assert (Hgo : forall pc', AThr order (a_edges s) i pc' -> AInv (AState (a_num s) (a_edges s) (<[i := pc']> (a_thr s)))).
    { intros pc' H'. exists order. cbn [a_num a_edges a_thr]. split_and!; try done; [by rewrite insert_length|]. intros k q Hq. destruct (upd_cases _ _ _ _ _ Hq) as [(-> & -> & _)|[_ ?]]; [done|by apply HT]. }
    rewrite (u_comp i Hi). cbn [mbind option_bind]. destruct (Nat.eqb_spec i (c i)) as [Ei|Ei]; cbn [negb].
    + rewrite next_comp by done. cbn [mbind option_bind]. destruct (Nat.eqb_spec (step (c i)) (c i)) as [Es|Es].
      * cbn [mbind option_bind]. eexists. split; [done|]. split; [|apply Hpot; cbn; lia]. apply Hgo. intros [_ Ha]. by rewrite <- Ei in Es.
      * rewrite <- Ei in Hrep, Es. destruct (proj2 Hout i Hrep) as (x & Ex & Hx). rewrite Ex. cbn [mbind option_bind]. eexists. split; [done|]. split; [|apply Hpot; cbn; lia].
        apply Hgo. cbn. split; [done|]. split; [done|]. unfold IsEdge, to_weighted. cbn [w_source w_target w_weight directed_edge weight]. unfold BoruvkaUpdate.dst. destruct (u_best i Hrep) as (B1 & B2 & _).
        destruct (C28_endpoints _ _ (vertex ltb wt n NB wt_sym _ B1) (vertex ltb wt n NB wt_sym _ B2)) as (-> & -> & _). done.
    + cbn [mbind option_bind]. eexists. split; [done|]. split; [|apply Hpot; cbn; lia]. apply Hgo. intros [[_ Ha] _]. congruence.
  - destruct HTi as (HA & Hnin & HIE). eexists. split; [done|]. split; [|apply Hpot; cbn; lia]. exists (order ++ [i]). cbn [a_num a_edges a_thr]. split_and!; try done.
    + apply NoDup_app. split; [done|]. split; [|apply NoDup_singleton]. intros x Hx ->%elem_of_list_singleton. done.
    + intros r [Hr| ->%elem_of_list_singleton]%elem_of_app; [by apply HO|done].
    + rewrite app_length. cbn. lia.
    + by rewrite insert_length.
    + assert (Hm : forall k r, order !! k = Some r -> (order ++ [i]) !! k = Some r) by (intros; by apply lookup_app_l_Some).
      intros k q Hq. destruct (upd_cases _ _ _ _ _ Hq) as [(-> & -> & _)|[Hki Hq']].
      * cbn. split; [done|]. exists (length order). split; [by rewrite lookup_app_r, Nat.sub_diag by lia|done].
      * pose proof (HT _ _ Hq') as H'. destruct q; cbn in *.
        -- intros [?|?%elem_of_list_singleton]%elem_of_app; done.
        -- destruct H' as (A1 & A2 & A3). split; [done|]. split; [|done]. intros [?|?%elem_of_list_singleton]%elem_of_app; done.
        -- destruct H' as (A1 & k' & A2 & A3). split; [done|]. exists k'. auto.
        -- intros HAk. destruct (H' HAk) as (k' & e' & A1 & A2 & A3). exists k', e'. auto.
  - destruct HTi as (HIE & k & Hk & ->). pose proof (adds_bound order HD HO) as Hb. pose proof (lookup_lt_Some _ _ _ Hk) as Hkl. rewrite wr_Some by lia. cbn [mbind option_bind].
    eexists. split; [done|]. split; [|apply Hpot; cbn; lia]. exists order. cbn [a_num a_edges a_thr]. split_and!; try done; [by rewrite insert_length..| |].
    + rewrite take_insert by lia. done.
    + intros k' q Hq. destruct (upd_cases _ _ _ _ _ Hq) as [(-> & -> & _)|[Hki Hq']].
      * cbn. intros _. exists k, e. split; [done|]. split; [|done]. apply list_lookup_insert. lia.
      * pose proof (HT _ _ Hq') as H'. destruct q; cbn in *; try done. intros HAk. destruct (H' HAk) as (k2 & e2 & A1 & A2 & A3). exists k2, e2. split; [done|]. split; [|done].
        rewrite list_lookup_insert_ne; [done|]. intros E1. assert (k2 = k) as -> by lia. congruence.
Qed.
Definition NewEdges (s : @astate W) : Prop := exists order,
  NoDup order /\ (forall r, r ∈ order <-> Adds r) /\ a_num s = num0 + length order /\ length (a_edges s) = n - 1 /\ take num0 (a_edges s) = take num0 edges0 /\
  forall k r, order !! k = Some r -> exists e, a_edges s !! (num0 + k) = Some e /\ IsEdge r e.
Lemma new_edges_ok : Kernel (astep labels out) alive (AState num0 edges0 (replicate n AStart)) NewEdges.
Proof.
  apply (Kernel_inv _ _ _ _ AInv (fun s => sum_list_with aphi (a_thr s))).
  - exists []. cbn [a_num a_edges a_thr]. split; [apply NoDup_nil_2|]. split; [by intros r ?%elem_of_nil|]. split; [cbn; lia|]. split; [done|]. split; [apply replicate_length|]. split; [done|]. intros i pc [-> _]%lookup_replicate. by intros ?%elem_of_nil.
  - intros s t s' _. unfold astep, alive. destruct (a_thr s !! t) as [pc|]; [|done]. intros Hs. exists pc. split; [done|]. by intros ->.
  - apply astep_ok.
  - intros s (order & HD & HO & HN & HE & HL & HTk & HT) Hdead.
    assert (Hall : forall r, Adds r -> exists k e, order !! k = Some r /\ a_edges s !! (num0 + k) = Some e /\ IsEdge r e).
    { intros r Hr. destruct (lookup_lt_is_Some_2 (a_thr s) r) as [pc Hpc]; [rewrite HL; apply Hr|].
      assert (pc = ADone) as ->. { destruct pc; [| | |done]; exfalso; apply (Hdead r); eexists; (split; [exact Hpc|done]). }
      by apply (HT _ _ Hpc). }
    exists order. split_and!; try done.
    + intros r. split; [apply HO|]. intros Hr. destruct (Hall r Hr) as (k & e & Hk & _). by eapply elem_of_list_lookup_2.
    + intros k r Hk. destruct (Hall r) as (k' & e & Hk' & He & HI); [apply HO; by eapply elem_of_list_lookup_2|].
      assert (k' = k) as -> by (by eapply NoDup_lookup). eauto.
Qed.

(** ** The new labels *)
Definition Lab (ls : list Z) : Prop := forall i, i < n -> exists x, ls !! i = Some (Z.of_nat x) /\ (x = c i \/ x = fin (c i)).
Definition BThr (ls : list Z) (i : nat) (pc : bpc) : Prop :=
  match pc with
  | BStart => True
  | BNext p => Rep p /\ fin p = fin (c i)
  | BNext2 p x => Rep p /\ fin p = fin (c i) /\ (x = nxt p \/ x = fin p)
  | BWrite f => f = fin (c i)
  | BDone => ls !! i = Some (Z.of_nat (fin (c i)))
  end.
Definition BInv (s : bstate) : Prop :=
  length (b_labels s) = length labels /\ length (b_thr s) = n /\ Lab (b_labels s) /\ forall i pc, b_thr s !! i = Some pc -> BThr (b_labels s) i pc.
Notation depth := (depth n lt c).
Definition bphi (pc : bpc) : nat := match pc with BStart => 2 * (n + 2) + 4 | BNext p => 2 * depth p + 3 | BNext2 p _ => 2 * depth p + 2 | BWrite _ => 1 | BDone => 0 end.
Notation fin_rep := (fin_rep n lt PO c Hc Hcc Htwo).
Notation fin_fixed := (fin_fixed n lt PO c Hc Hcc Htwo).
Notation fin_nxt := (fin_nxt n lt PO c Hc Hcc Htwo).
Notation nxt_rep := (nxt_rep n lt PO c Hc Hcc Htwo).
Lemma fin_fin r : Rep r -> fin (fin r) = fin r. Proof. intros Hr. by apply fin_of_fixed, fin_fixed. Qed.
Lemma lab_fin ls i : Lab ls -> i < n -> exists x, ls !! i = Some (Z.of_nat x) /\ Rep x /\ fin x = fin (c i).
Proof.
  intros HLb Hi. destruct (HLb i Hi) as (x & Hx & Hor). exists x. split; [done|]. pose proof (u_rep i Hi). destruct Hor as [->| ->]; [done|]. split; [by apply fin_rep|by apply fin_fin].
Qed.
Lemma read_next ls r : Lab ls -> Rep r -> exists x, next_of out ls r = Some x /\ (x = nxt r \/ x = fin r).
Proof.
  intros HLb Hr. rewrite next_ok by done. destruct (u_best r Hr) as (_ & B2 & _). destruct (HLb _ B2) as (x & -> & Hx). exists x. cbn. split; [apply u_index|].
  destruct Hx as [->| ->]; [by left|right]. by apply (fin_nxt r).
Qed.
Lemma depth_zero r : Rep r -> depth r = 0 -> fin r = r.
Proof.
  intros Hr H. apply fin_of_fixed, (step_fixed n lt PO c Hc Hcc Htwo); [done|]. unfold BoruvkaGraph.depth in H. destruct (Nat.eqb_spec (nxt (nxt r)) r) as [E1|E1]; [|done].
  destruct (Nat.ltb_spec r (nxt r)); [done|lia].
Qed.
Lemma depth_fin r : Rep r -> depth (fin r) = 0.
Proof.
  intros Hr. destruct (proj1 (step_fixed n lt PO c Hc Hcc Htwo (fin r) (fin_rep r Hr)) (fin_fixed r Hr)) as [E1 E2]. unfold BoruvkaGraph.depth.
  by rewrite E1, Nat.eqb_refl, (proj2 (Nat.ltb_lt _ _) E2).
Qed.
(** whatever mixture of old and new labels is read, the walk takes the right step or jumps to the end *)
Lemma resolve_ok p x y : Rep p -> x = nxt p \/ x = fin p -> y = nxt x \/ y = fin x -> resolve p x y = step p \/ resolve p x y = fin p.
Proof.
  intros Hp Hx Hy. pose proof (nxt_rep p Hp) as [Hn Hne]. unfold resolve. destruct Hx as [->| ->].
  - left. unfold BoruvkaGraph.step. destruct Hy as [->| ->]; [by destruct (_ =? _)|]. rewrite (fin_nxt p Hp). pose proof (fin_fixed p Hp) as Hff.
    destruct (Nat.eqb_spec (fin p) p) as [E1|E1]; cbn [negb].
    + rewrite E1 in Hff. apply (step_fixed n lt PO c Hc Hcc Htwo) in Hff as [-> _]; [|done]. by rewrite Nat.eqb_refl.
    + destruct (Nat.eqb_spec (nxt (nxt p)) p) as [E2|E2]; [|done]. destruct (decide (p < nxt p)) as [L|L]; [|by rewrite Nat.min_r by lia].
      exfalso. apply E1. apply fin_of_fixed. by apply (step_fixed n lt PO c Hc Hcc Htwo).
  - right. destruct (proj1 (step_fixed n lt PO c Hc Hcc Htwo (fin p) (fin_rep p Hp)) (fin_fixed p Hp)) as [E1 E2].
    destruct (Nat.eqb_spec y p) as [->|E3]; cbn [negb]; [|done]. destruct Hy as [E4|E4].
    + rewrite <- E4 in E2. lia.
    + rewrite fin_fin in E4 by done. lia.
Qed.
Lemma bstep_ok s i : BInv s -> blive s i -> exists s', bstep out s i = Some s' /\ BInv s' /\ sum_list_with bphi (b_thr s') < sum_list_with bphi (b_thr s).
Proof.
  intros (HLL & HL & HLb & HT) (pc & Hpc & Hne). assert (i < n) as Hi by (rewrite <- HL; by eapply lookup_lt_Some). pose proof (u_rep i Hi) as Hrep.
  pose proof (HT _ _ Hpc) as HTi. unfold bstep. rewrite Hpc. cbn [mbind option_bind].
  assert (Hgo : forall pc', BThr (b_labels s) i pc' -> bphi pc' < bphi pc ->
    BInv (BState (b_labels s) (<[i := pc']> (b_thr s))) /\ sum_list_with bphi (b_thr (BState (b_labels s) (<[i := pc']> (b_thr s)))) < sum_list_with bphi (b_thr s)).
  { intros pc' H' Hlt. cbn [b_thr]. pose proof (sum_map_insert bphi (b_thr s) i pc pc' Hpc). split; [|lia]. unfold BInv. cbn [b_thr b_labels]. split; [done|]. split; [by rewrite insert_length|]. split; [done|].
    intros k q Hq. destruct (upd_cases _ _ _ _ _ Hq) as [(-> & -> & _)|[_ ?]]; [done|by apply HT]. }
  destruct pc as [|p|p x|f|]; [| | | |done].
  - destruct (lab_fin _ i HLb Hi) as (x & Ex & Hx & Hf). rewrite Ex. cbn [mbind option_bind]. rewrite u_index. cbn [mbind option_bind]. eexists. split; [done|]. apply Hgo; [done|].
    cbn. assert (depth x <= n + 2) by (by apply depth_bound). lia.
  - destruct HTi as [Hp Hf]. destruct (read_next _ p HLb Hp) as (x & -> & Hx). cbn [mbind option_bind]. eexists. split; [done|]. apply Hgo; [done|cbn; lia].
  - destruct HTi as (Hp & Hf & Hx). assert (Rep x /\ fin x = fin p) as [Hxr Hxf]. { destruct Hx as [->| ->]; [split; [by apply nxt_rep|by apply fin_nxt]|split; [by apply fin_rep|by apply fin_fin]]. }
    destruct (read_next _ x HLb Hxr) as (y & -> & Hy). cbn [mbind option_bind]. eexists. split; [done|]. pose proof (resolve_ok p x y Hp Hx Hy) as Hres. set (res := resolve p x y) in *.
    destruct (Nat.eqb_spec res p) as [Er|Er]; apply Hgo; cbn; try lia.
    + rewrite <- Hf, Er. destruct Hres as [Hres|Hres]; rewrite Er in Hres; [|done]. symmetry. by apply fin_of_fixed.
    + destruct Hres as [-> | ->].
      * split; [by apply (step_rep n lt PO c Hc Hcc Htwo)|]. by rewrite (fin_step n lt PO c Hc Hcc Htwo).
      * split; [by apply fin_rep|]. by rewrite fin_fin.
    + assert (depth res < depth p); [|lia]. destruct Hres as [Hr|Hr]; rewrite Hr in *.
      * by apply (step_depth n lt PO c Hc Hcc Htwo).
      * rewrite depth_fin by done. destruct (decide (depth p = 0)) as [E1|]; [|lia]. exfalso. apply Er. by apply depth_zero.
  - cbn in HTi. subst f. destruct (HLb i Hi) as (old & Ho & _). pose proof (lookup_lt_Some _ _ _ Ho) as Hil. rewrite wr_Some by done. cbn [mbind option_bind]. eexists. split; [done|].
    cbn [b_thr]. pose proof (sum_map_insert bphi (b_thr s) i _ BDone Hpc) as Hs. cbn [bphi] in Hs. split; [|lia]. unfold BInv. cbn [b_thr b_labels].
    split; [by rewrite insert_length|]. split; [by rewrite insert_length|]. split.
    + intros k Hk. destruct (decide (k = i)) as [->|Hki]; [exists (fin (c i)); split; [by apply list_lookup_insert|by right]|]. rewrite list_lookup_insert_ne by done. by apply HLb.
    + intros k q Hq. destruct (upd_cases _ _ _ _ _ Hq) as [(-> & -> & _)|[Hki Hq']]; [cbn; by apply list_lookup_insert|]. pose proof (HT _ _ Hq') as H'. destruct q; cbn in *; try done.
      by rewrite list_lookup_insert_ne.
Qed.
Lemma new_labels_ok : n <= length labels -> Kernel (bstep out) blive (BState labels (replicate n BStart))
  (fun s => length (b_labels s) = length labels /\ forall i, i < n -> b_labels s !! i = Some (Z.of_nat (fin (c i)))).
Proof.
  intros Hnl. apply (Kernel_inv _ _ _ _ BInv (fun s => sum_list_with bphi (b_thr s))).
  - unfold BInv. cbn [b_labels b_thr]. split; [done|]. split; [apply replicate_length|]. split; [|by intros i pc [-> _]%lookup_replicate]. intros i Hi. exists (c i). split; [by apply Hlab|by left].
  - intros s t s' _. unfold bstep, blive. destruct (b_thr s !! t) as [pc|]; [|done]. intros Hs. exists pc. split; [done|]. by intros ->.
  - apply bstep_ok.
  - intros s (HLL & HL & HLb & HT) Hdead. split; [done|]. intros i Hi. destruct (lookup_lt_is_Some_2 (b_thr s) i) as [pc Hpc]; [by rewrite HL|].
    assert (pc = BDone) as ->. { destruct pc; [| | | |done]; exfalso; apply (Hdead i); eexists; (split; [exact Hpc|done]). }
    exact (HT _ _ Hpc).
Qed.
End After.
