(** The kernels that record which edge every component chose, in mode HDBSCAN. *)
From Verif Require Export HdbscanModel BoruvkaProof.
Local Open Scope nat_scope.

Section After.
Context {W : Type} (ltb : W -> W -> bool) (SW : StrictWeak ltb) (wt : nat * nat -> W) (n : nat).
Hypothesis NB : (N.of_nat n <= 2 ^ 31)%N.
Hypothesis wt_sym : forall i j, i < n -> j < n -> i <> j -> weq ltb (wt (i, j)) (wt (j, i)) = true.
Notation lt := (plt ltb wt).
Notation PO := (plt_order ltb SW wt n NB wt_sym).
Context (c : nat -> nat).
Hypothesis Hc : forall i, i < n -> c i < n.
Hypothesis Hcc : forall i, i < n -> c (c i) = c i.
Hypothesis Htwo : exists i j, i < n /\ j < n /\ c i <> c j.
Context (labels : list Z).
Hypothesis Hlab : forall i, i < n -> labels !! i = Some (Z.of_nat (c i)).
Notation best := (best n lt c).
Notation Rep := (Rep n c).
Notation best_spec := (best_spec n lt PO c Hc Hcc Htwo).
Notation u_rep := (u_rep n c Hc Hcc).
Notation u_comp := (u_comp n c labels Hlab).
Notation u_best := (u_best ltb SW wt n NB wt_sym c Hc Hcc Htwo).
Context (out : list (dedge W)).
Hypothesis Hout : OutOK ltb wt n c out.
Notation nxt := (nxt n lt c).
Notation step := (step n lt c).
Notation next_comp := (next_comp ltb SW wt n NB wt_sym c Hc Hcc Htwo labels Hlab out Hout).
Notation next_labels := (next_labels ltb SW wt n NB wt_sym c Hc Hcc Htwo labels Hlab out Hout).
Notation Adds := (Adds n lt c).
Notation IsEdge := (IsEdge ltb wt n c).
Context (num0 : nat) (edges0 : list (wedge W)) (map0 : list nat).
Hypothesis Hnum : num0 + comps n c = n.
Hypothesis Hlen : length edges0 = n - 1.
Hypothesis Hmap : length map0 = n.
Notation adds_bound := (adds_bound ltb SW wt n NB wt_sym c Hc Hcc Htwo labels Hlab num0 edges0 Hnum Hlen).

(** ** The new edges *)
Definition HThr (order : list nat) (edges : list (wedge W)) (map : list nat) (i : nat) (pc : @hpc W) : Prop :=
  match pc with
  | HStart => i ∉ order
  | HInc e => Adds i /\ i ∉ order /\ IsEdge i e
  | HWrite back e => IsEdge i e /\ exists k, order !! k = Some i /\ back = num0 + k
  | HMap back => exists k e, order !! k = Some i /\ back = num0 + k /\ edges !! (num0 + k) = Some e /\ IsEdge i e
  | HDone => Adds i -> exists k e, order !! k = Some i /\ edges !! (num0 + k) = Some e /\ IsEdge i e /\ map !! i = Some (num0 + k)
  end.
Definition HInv (s : hstate) : Prop := exists order,
  NoDup order /\ (forall r, r ∈ order -> Adds r) /\ h_num s = num0 + length order /\ length (h_edges s) = n - 1 /\ length (h_map s) = n /\ length (h_thr s) = n /\
  take num0 (h_edges s) = take num0 edges0 /\ forall i pc, h_thr s !! i = Some pc -> HThr order (h_edges s) (h_map s) i pc.
Definition hphi (pc : @hpc W) : nat := match pc with HStart => 4 | HInc _ => 3 | HWrite _ _ => 2 | HMap _ => 1 | HDone => 0 end.
Lemma hstep_ok s i : HInv s -> hlive s i -> exists s', hstep labels out s i = Some s' /\ HInv s' /\ sum_list_with hphi (h_thr s') < sum_list_with hphi (h_thr s).
Proof.
  intros (order & HD & HO & HN & HE & HM & HL & HTk & HT) (pc & Hpc & Hne). assert (i < n) as Hi by (rewrite <- HL; by eapply lookup_lt_Some). pose proof (u_rep i Hi) as Hrep.
  pose proof (HT _ _ Hpc) as HTi. unfold hstep. rewrite Hpc. cbn [mbind option_bind].
  assert (Hpot : forall pc', hphi pc' < hphi pc -> sum_list_with hphi (<[i := pc']> (h_thr s)) < sum_list_with hphi (h_thr s)).
  { intros pc' Hlt. pose proof (sum_map_insert hphi (h_thr s) i pc pc' Hpc). lia. }
  destruct pc as [|e|back e|back|]; [| | | |done].
  - assert (Hgo : forall pc', HThr order (h_edges s) (h_map s) i pc' -> HInv (HState (h_num s) (h_edges s) (h_map s) (<[i := pc']> (h_thr s)))).
    { intros pc' H'. exists order. cbn [h_num h_edges h_map h_thr]. split_and!; try done; [by rewrite insert_length|]. intros k q Hq. destruct (upd_cases _ _ _ _ _ Hq) as [(-> & -> & _)|[_ ?]]; [done|by apply HT]. }
    rewrite (u_comp i Hi). cbn [mbind option_bind]. destruct (Nat.eqb_spec i (c i)) as [Ei|Ei]; cbn [negb].
    + rewrite next_comp by done. cbn [mbind option_bind]. destruct (Nat.eqb_spec (step (c i)) (c i)) as [Es|Es].
      * cbn [mbind option_bind]. eexists. split; [done|]. split; [|apply Hpot; cbn; lia]. apply Hgo. intros [_ Ha]. by rewrite <- Ei in Es.
      * rewrite <- Ei in Hrep, Es. destruct (proj2 Hout i Hrep) as (x & Ex & Hx). rewrite Ex. cbn [mbind option_bind]. eexists. split; [done|]. split; [|apply Hpot; cbn; lia].
        apply Hgo. cbn. split; [done|]. split; [done|]. unfold BoruvkaUpdate.IsEdge, to_weighted. cbn [w_source w_target w_weight directed_edge weight]. unfold BoruvkaUpdate.dst. destruct (u_best i Hrep) as (B1 & B2 & _).
        destruct (C28_endpoints _ _ (vertex ltb wt n NB wt_sym _ B1) (vertex ltb wt n NB wt_sym _ B2)) as (-> & -> & _). done.
    + cbn [mbind option_bind]. eexists. split; [done|]. split; [|apply Hpot; cbn; lia]. apply Hgo. intros [[_ Ha] _]. congruence.
  - destruct HTi as (HA & Hnin & HIE). eexists. split; [done|]. split; [|apply Hpot; cbn; lia]. exists (order ++ [i]). cbn [h_num h_edges h_map h_thr]. split_and!; try done.
    + apply NoDup_app. split; [done|]. split; [|apply NoDup_singleton]. intros x Hx ->%elem_of_list_singleton. done.
    + intros r [Hr| ->%elem_of_list_singleton]%elem_of_app; [by apply HO|done].
    + rewrite app_length. cbn. lia.
    + by rewrite insert_length.
    + assert (Hm : forall k r, order !! k = Some r -> (order ++ [i]) !! k = Some r) by (intros; by apply lookup_app_l_Some).
      intros k q Hq. destruct (upd_cases _ _ _ _ _ Hq) as [(-> & -> & _)|[Hki Hq']].
      * cbn. split; [done|]. exists (length order). split; [by rewrite lookup_app_r, Nat.sub_diag by lia|done].
      * pose proof (HT _ _ Hq') as H'. destruct q; cbn in *.
        -- intros [?|?%elem_of_list_singleton]%elem_of_app; done.
        -- destruct H' as (A1 & A2 & A3). split; [done|]. split; [|done]. intros [?|?%elem_of_list_singleton]%elem_of_app; done.
        -- destruct H' as (A1 & k' & A2 & A3). split; [done|]. exists k'. auto.
        -- destruct H' as (k' & e' & A1 & A2 & A3). exists k', e'. auto.
        -- intros HAk. destruct (H' HAk) as (k' & e' & A1 & A2 & A3). exists k', e'. auto.
  - destruct HTi as (HIE & k & Hk & ->). pose proof (adds_bound order HD HO) as Hb. pose proof (lookup_lt_Some _ _ _ Hk) as Hkl. rewrite wr_Some by lia. cbn [mbind option_bind].
    eexists. split; [done|]. split; [|apply Hpot; cbn; lia]. exists order. cbn [h_num h_edges h_map h_thr]. split_and!; try done; [by rewrite insert_length..| |].
    + rewrite take_insert by lia. done.
    + assert (Hins : forall k' k2 e2, k' <> i -> order !! k2 = Some k' -> h_edges s !! (num0 + k2) = Some e2 -> <[num0 + k := e]> (h_edges s) !! (num0 + k2) = Some e2).
      { intros k' k2 e2 Hk' A1 A2. rewrite list_lookup_insert_ne; [done|]. intros E1. assert (k2 = k) as -> by lia. congruence. }
      intros k' q Hq. destruct (upd_cases _ _ _ _ _ Hq) as [(-> & -> & _)|[Hki Hq']].
      * cbn. exists k, e. split_and!; [done|done|apply list_lookup_insert; lia|done].
      * pose proof (HT _ _ Hq') as H'. destruct q; cbn in *; try done.
        -- destruct H' as (k2 & e2 & A1 & A2 & A3 & A4). exists k2, e2. split_and!; [done|done|by eapply Hins|done].
        -- intros HAk. destruct (H' HAk) as (k2 & e2 & A1 & A2 & A3 & A4). exists k2, e2. split_and!; [done|by eapply Hins|done|done].
  - destruct HTi as (k & e & Hk & -> & He & HIE). rewrite wr_Some by lia. cbn [mbind option_bind].
    eexists. split; [done|]. split; [|apply Hpot; cbn; lia]. exists order. cbn [h_num h_edges h_map h_thr]. split_and!; try done; [by rewrite insert_length..|].
    intros k' q Hq. destruct (upd_cases _ _ _ _ _ Hq) as [(-> & -> & _)|[Hki Hq']].
    + cbn. intros _. exists k, e. split_and!; [done..|]. apply list_lookup_insert. lia.
    + pose proof (HT _ _ Hq') as H'. destruct q; cbn in *; try done. intros HAk. destruct (H' HAk) as (k2 & e2 & A1 & A2 & A3 & A4). exists k2, e2. split_and!; [done..|].
      by rewrite list_lookup_insert_ne.
Qed.
Definition NewEdgesH (s : @hstate W) (order : list nat) : Prop :=
  NoDup order /\ (forall r, r ∈ order <-> Adds r) /\ h_num s = num0 + length order /\ length (h_edges s) = n - 1 /\ length (h_map s) = n /\ take num0 (h_edges s) = take num0 edges0 /\
  forall k r, order !! k = Some r -> h_map s !! r = Some (num0 + k) /\ exists e, h_edges s !! (num0 + k) = Some e /\ IsEdge r e.
Lemma hnew_edges_ok : Kernel (hstep labels out) hlive (HState num0 edges0 map0 (replicate n HStart)) (fun s => exists order, NewEdgesH s order).
Proof.
  apply (Kernel_inv _ _ _ _ HInv (fun s => sum_list_with hphi (h_thr s))).
  - exists []. cbn [h_num h_edges h_map h_thr]. split; [apply NoDup_nil_2|]. split; [by intros r ?%elem_of_nil|]. split; [cbn; lia|]. split; [done|]. split; [done|]. split; [apply replicate_length|]. split; [done|]. intros i pc [-> _]%lookup_replicate. by intros ?%elem_of_nil.
  - intros s t s' _. unfold hstep, hlive. destruct (h_thr s !! t) as [pc|]; [|done]. intros Hs. exists pc. split; [done|]. by intros ->.
  - apply hstep_ok.
  - intros s (order & HD & HO & HN & HE & HM & HL & HTk & HT) Hdead.
    assert (Hall : forall r, Adds r -> exists k e, order !! k = Some r /\ h_edges s !! (num0 + k) = Some e /\ IsEdge r e /\ h_map s !! r = Some (num0 + k)).
    { intros r Hr. destruct (lookup_lt_is_Some_2 (h_thr s) r) as [pc Hpc]; [rewrite HL; apply Hr|].
      assert (pc = HDone) as ->. { destruct pc; [| | | |done]; exfalso; apply (Hdead r); eexists; (split; [exact Hpc|done]). }
      by apply (HT _ _ Hpc). }
    exists order. split_and!; try done.
    + intros r. split; [apply HO|]. intros Hr. destruct (Hall r Hr) as (k & e & Hk & _). by eapply elem_of_list_lookup_2.
    + intros k r Hk. destruct (Hall r) as (k' & e & Hk' & He & HI & Hm); [apply HO; by eapply elem_of_list_lookup_2|].
      assert (k' = k) as -> by (by eapply NoDup_lookup). eauto.
Qed.

(** ** The components whose edge another component added *)
Context (order map1 : list nat).
Hypothesis HD : NoDup order.
Hypothesis HO : forall r, r ∈ order <-> Adds r.
Hypothesis Hm1 : length map1 = n.
Hypothesis Hm1s : forall k r, order !! k = Some r -> map1 !! r = Some (num0 + k).
(** [map] gives for every component the position of the edge it chose *)
Definition MapOk (map : list nat) : Prop := length map = n /\ forall r, Rep r -> exists k r', order !! k = Some r' /\ map !! r = Some (num0 + k) /\ SamePair (best r') (best r).
Lemma fixed_other r : Rep r -> step r = r -> Adds (nxt r) /\ SamePair (best (nxt r)) (best r).
Proof.
  intros Hr Hs. apply (step_fixed n lt PO c Hc Hcc Htwo r Hr) in Hs as [E L]. destruct (nxt_rep n lt PO c Hc Hcc Htwo r Hr) as [Hn _]. split.
  - split; [done|]. intros Hf%(step_fixed n lt PO c Hc Hcc Htwo); [|done]. rewrite E in Hf. lia.
  - rewrite (mutual_same n lt PO c Hc Hcc Htwo r Hr E). right. cbn. apply surjective_pairing.
Qed.
Definition GThr (map : list nat) (i : nat) (pc : gpc) : Prop :=
  match pc with
  | GStart => True
  | GWrite v => Rep i /\ step i = i /\ map1 !! nxt i = Some v
  | GDone => Rep i -> step i = i -> map !! i = map1 !! nxt i
  end.
Definition GInv (s : gstate) : Prop := length (g_map s) = n /\ length (g_thr s) = n /\ (forall r, Adds r -> g_map s !! r = map1 !! r) /\ forall i pc, g_thr s !! i = Some pc -> GThr (g_map s) i pc.
Definition gphi (pc : gpc) : nat := match pc with GStart => 2 | GWrite _ => 1 | GDone => 0 end.
Lemma gstep_ok s i : GInv s -> glive s i -> exists s', gstep labels out s i = Some s' /\ GInv s' /\ sum_list_with gphi (g_thr s') < sum_list_with gphi (g_thr s).
Proof.
  intros (HM & HL & HA & HT) (pc & Hpc & Hne). assert (i < n) as Hi by (rewrite <- HL; by eapply lookup_lt_Some). pose proof (u_rep i Hi) as Hrep.
  pose proof (HT _ _ Hpc) as HTi. unfold gstep. rewrite Hpc. cbn [mbind option_bind].
  assert (Hpot : forall pc', gphi pc' < gphi pc -> sum_list_with gphi (<[i := pc']> (g_thr s)) < sum_list_with gphi (g_thr s)).
  { intros pc' Hlt. pose proof (sum_map_insert gphi (g_thr s) i pc pc' Hpc). lia. }
  destruct pc as [|v|]; [| |done].
  - assert (Hgo : forall pc', GThr (g_map s) i pc' -> GInv (GState (g_map s) (<[i := pc']> (g_thr s)))).
    { intros pc' H'. cbn [g_map g_thr]. split_and!; try done; cbn [g_map g_thr]; [by rewrite insert_length|]. intros k q Hq. destruct (upd_cases _ _ _ _ _ Hq) as [(-> & -> & _)|[_ ?]]; [done|by apply HT]. }
    rewrite (u_comp i Hi). cbn [mbind option_bind]. destruct (Nat.eqb_spec i (c i)) as [Ei|Ei]; cbn [negb].
    + rewrite next_comp by done. cbn [mbind option_bind]. destruct (Nat.eqb_spec (step (c i)) (c i)) as [Es|Es]; cbn [negb].
      * rewrite <- Ei in Hrep, Es. rewrite next_labels by done. cbn [mbind option_bind]. destruct (fixed_other i Hrep Es) as [Hadd _]. rewrite (HA _ Hadd).
        apply HO, elem_of_list_lookup in Hadd as [k Hk]. rewrite (Hm1s _ _ Hk). cbn [mbind option_bind]. eexists. split; [done|]. split; [|apply Hpot; cbn; lia]. apply Hgo. split_and!; [done..|]. by rewrite (Hm1s _ _ Hk).
      * cbn [mbind option_bind]. eexists. split; [done|]. split; [|apply Hpot; cbn; lia]. apply Hgo. intros _ Ha. by rewrite <- Ei in Es.
    + cbn [mbind option_bind]. eexists. split; [done|]. split; [|apply Hpot; cbn; lia]. apply Hgo. intros [_ Ha]. congruence.
  - destruct HTi as (Hr & Hs & Hv). rewrite wr_Some by lia. cbn [mbind option_bind]. eexists. split; [done|]. split; [|apply Hpot; cbn; lia]. split_and!; cbn [g_map g_thr]; [by rewrite insert_length..| |].
    + intros r Hr'. rewrite list_lookup_insert_ne; [by apply HA|]. intros ->. by apply Hr'.
    + intros k q Hq. destruct (upd_cases _ _ _ _ _ Hq) as [(-> & -> & _)|[Hki Hq']].
      * cbn. intros _ _. rewrite Hv. apply list_lookup_insert. lia.
      * pose proof (HT _ _ Hq') as H'. destruct q; cbn in *; try done. by rewrite list_lookup_insert_ne.
Qed.
Lemma map_ok : Kernel (gstep labels out) glive (GState map1 (replicate n GStart)) (fun s => MapOk (g_map s)).
Proof.
  apply (Kernel_inv _ _ _ _ GInv (fun s => sum_list_with gphi (g_thr s))).
  - split_and!; cbn [g_map g_thr]; [done|apply replicate_length|done|]. by intros i pc [-> _]%lookup_replicate.
  - intros s t s' _. unfold gstep, glive. destruct (g_thr s !! t) as [pc|]; [|done]. intros Hs. exists pc. split; [done|]. by intros ->.
  - apply gstep_ok.
  - intros s (HM & HL & HA & HT) Hdead. split; [done|]. intros r Hr. destruct (decide (step r = r)) as [E|E].
    + destruct (fixed_other r Hr E) as [Hadd HS]. destruct (lookup_lt_is_Some_2 (g_thr s) r) as [pc Hpc]; [rewrite HL; apply Hr|].
      assert (pc = GDone) as ->. { destruct pc; [| |done]; exfalso; apply (Hdead r); eexists; (split; [exact Hpc|done]). }
      apply HO, elem_of_list_lookup in Hadd as [k Hk]. exists k, (nxt r). rewrite (HT _ _ Hpc Hr E). auto.
    + assert (Adds r) as Hadd by by split. rewrite (HA _ Hadd). apply HO, elem_of_list_lookup in Hadd as [k Hk]. exists k, r. split_and!; [done|by apply Hm1s|by left].
Qed.
End After.
