(** Proofs about the core distances and the two dendrogram implementations (CoreModel). *)
From Verif Require Import HdbscanProof NearestProof PropertiesBoruvka PropertiesTraversal PropertiesDendrogram.
From Verif Require Export CoreModel CoreSpec.
Local Open Scope nat_scope.

Section Core.
Context {V W : Type} (le : V -> V -> Prop) (vol : nat -> V) (perm : list nat) (T : tree V)
  (ltb : W -> W -> bool) (zero inf : W) (dl : nat -> nat -> W) (dv : nat -> V -> W) (cap H : nat).
Context (MI : MstInput le vol perm T ltb zero inf dl dv euclidean cap H).
Context (Hself : forall a b, a < length perm -> b < length perm -> dl a b = dl b a /\ ltb (dl a b) zero = false /\ ltb (dl a b) inf = true).
Notation n := (length perm).
Notation SW := (mi_sw _ _ _ _ _ _ _ _ _ _ _ _ MI).
Notation VT := (mi_valid _ _ _ _ _ _ _ _ _ _ _ _ MI).
Notation n2 := (mi_two _ _ _ _ _ _ _ _ _ _ _ _ MI).
Notation Hperm := (mi_perm _ _ _ _ _ _ _ _ _ _ _ _ MI).

Lemma zero_inf : ltb zero inf = true.
Proof.
  pose proof n2. destruct (Hself 0 0) as (_ & H1 & H2); [lia..|]. destruct (ltb zero inf) eqn:E; [done|].
  assert (ltb (dl 0 0) inf = false); [|congruence]. by apply (sw_incomp _ SW _ zero).
Qed.
Lemma fold_max (f : nat -> W) out : forall d, let c := fold_left (fun d i => wmax ltb d (f i)) out d in
  ltb c d = false /\ (forall i, i ∈ out -> ltb c (f i) = false) /\ (c = d \/ exists i, i ∈ out /\ c = f i).
Proof.
  induction out as [|x out IH]; intros d; cbn.
  - split; [apply (sw_irrefl _ SW)|]. split; [intros i Hi; by apply elem_of_nil in Hi|by left].
  - destruct (IH (wmax ltb d (f x))) as (H1 & H2 & H3). assert (ltb (wmax ltb d (f x)) d = false /\ ltb (wmax ltb d (f x)) (f x) = false /\ (wmax ltb d (f x) = d \/ wmax ltb d (f x) = f x)) as (E1 & E2 & E3).
    { unfold wmax. destruct (ltb d (f x)) eqn:E; [|split; [apply (sw_irrefl _ SW)|by auto]]. split; [by apply (w_asym ltb SW)|]. split; [apply (sw_irrefl _ SW)|by right]. }
    split; [by apply (w_trans ltb SW _ (wmax ltb d (f x)))|]. split.
    + intros i [->|Hi]%elem_of_cons; [by apply (w_trans ltb SW _ (wmax ltb d (f x)))|by apply H2].
    + destruct H3 as [->|(i & Hi & ->)]; [|right; exists i; split; [by right|done]]. destruct E3 as [->| ->]; [by left|right; exists x; split; [by left|done]].
Qed.
Lemma filter_all {A} (p : A -> Prop) `{!forall x, Decision (p x)} (l : list A) : (forall x, x ∈ l -> p x) -> filter p l = l.
Proof. induction l as [|x l IH]; intros Hp; [done|]. rewrite filter_cons_True by (apply Hp; by left). f_equal. apply IH. intros y Hy. apply Hp. by right. Qed.
Lemma filter_none {A} (p : A -> Prop) `{!forall x, Decision (p x)} (l : list A) : (forall x, x ∈ l -> ~ p x) -> filter p l = [].
Proof. induction l as [|x l IH]; intros Hp; [done|]. rewrite filter_cons_False by (apply Hp; by left). apply IH. intros y Hy. apply Hp. by right. Qed.

Lemma core_distance_ok k j : 1 <= k -> j < n ->
  exists c, core_distance T ltb zero inf dl dv cap k j = Some c /\ KthDistance ltb (dl j) n (min k n) c /\ ltb c inf = true.
Proof.
  intros Hk Hj. pose proof n2 as Hn. unfold core_distance.
  destruct (nearest_query_correct le vol perm T VT Hn ltb zero inf (dl j) (dv j) k cap SW (mi_safe _ _ _ _ _ _ _ _ _ _ _ _ MI j Hj) Hk zero_inf) as [HO|(out & -> & HK)].
  { exfalso. by apply (nearest_query_no_overflow T ltb (dl j) (dv j) k cap H (mi_cap _ _ _ _ _ _ _ _ _ _ _ _ MI) zero inf (mi_height _ _ _ _ _ _ _ _ _ _ _ _ MI)) in HO. }
  destruct HK as [[rest Hsub] Hlen Hfin _ Hmin]. specialize (Hmin rest Hsub).
  assert (Hin : forall o, o ∈ out \/ o ∈ rest -> o < n).
  { intros o Ho. apply elem_of_app in Ho. rewrite <- Hsub, Hperm in Ho. apply elem_of_seq in Ho. lia. }
  rewrite (filter_all _ perm) in Hlen. 2: { intros o Ho. rewrite Hsub in Ho. apply elem_of_app in Ho. apply Hself; [done|by apply Hin]. }
  destruct (fold_max (fun i => dl i j) out zero) as (H1 & H2 & H3). set (c := fold_left _ out zero) in *. exists c. split; [done|].
  assert (exists i, i ∈ out /\ ltb (dl j i) c = false) as (i & Hi & Hic).
  { destruct H3 as [->|(i & Hi & ->)].
    - destruct out as [|i out]; [cbn in Hlen; lia|]. exists i. split; [by left|]. apply Hself; [done|]. apply Hin. left. by left.
    - exists i. split; [done|]. rewrite (proj1 (Hself j i Hj (Hin i (or_introl Hi)))). apply (sw_irrefl _ SW). }
  split; [|destruct H3 as [->|(i' & Hi' & ->)]; [apply zero_inf|apply Hself; [by apply Hin; left|done]]].
  unfold KthDistance. rewrite <- Hlen. rewrite <- Hperm, Hsub, !filter_app, !app_length. split.
  - rewrite (filter_none _ rest), Nat.add_0_r.
    + apply elem_of_list_split in Hi as (o1 & o2 & ->). rewrite filter_app, filter_cons_False by congruence. rewrite !app_length. cbn.
      pose proof (filter_length (fun b => ltb (dl j b) c = true) o1). pose proof (filter_length (fun b => ltb (dl j b) c = true) o2). lia.
    + intros o Ho E. specialize (Hmin i o Hi Ho). pose proof (sw_incomp _ SW _ _ _ Hmin Hic). congruence.
  - rewrite (filter_all _ out); [lia|]. intros o Ho. rewrite (proj1 (Hself j o Hj (Hin o (or_introl Ho)))). by apply H2.
Qed.
Lemma core_distances_ok k : 1 <= k -> exists cs, core_distances T ltb zero inf dl dv cap k = Some cs /\
  forall j, j < n -> KthDistance ltb (dl j) n (min k n) (default zero (cs !! j)) /\ ltb (default zero (cs !! j)) inf = true.
Proof.
  intros Hk. unfold core_distances. rewrite (vt_size _ _ _ _ VT). destruct (mapM_total (core_distance T ltb zero inf dl dv cap k) (seq 0 n)) as (cs & -> & Hl & Hs).
  { intros i a Ha. apply lookup_seq in Ha as [-> Ha]. cbn. destruct (core_distance_ok k i Hk Ha) as (c & -> & _). done. }
  exists cs. split; [done|]. intros j Hj. rewrite (Hs j j) by (by apply lookup_seq). destruct (core_distance_ok k j Hk Hj) as (c & -> & Hc). done.
Qed.
End Core.

Section UnionFind.
Context {V W : Type} (le : V -> V -> Prop) (vol : nat -> V) (perm : list nat) (T : tree V)
  (ltb : W -> W -> bool) (zero inf : W) (dl : nat -> nat -> W) (dv : nat -> V -> W) (metric : nat -> nat -> W -> W) (cap H : nat).
Context (MI : MstInput le vol perm T ltb zero inf dl dv metric cap H).
Notation n := (length perm).
Notation SW := (mi_sw _ _ _ _ _ _ _ _ _ _ _ _ MI).
Notation n2 := (mi_two _ _ _ _ _ _ _ _ _ _ _ _ MI).
Notation NB := (mi_size _ _ _ _ _ _ _ _ _ _ _ _ MI).
Notation Hperm := (mi_perm _ _ _ _ _ _ _ _ _ _ _ _ MI).
Notation wsym := (wt_sym le vol perm T ltb zero inf dl dv metric cap H MI).
Notation wt := (wt perm dl metric).
Notation P := (P perm).
Context (es : list (wedge W)) (HR : Result perm ltb dl metric es).
Notation tree := ((fun e : wedge W => (w_weight e, (N.to_nat (w_source e), N.to_nat (w_target e)))) <$> es).

Lemma above_ancestor par x e : Above par x e <-> Ancestor (Some <$> par) x e.
Proof.
  split.
  - induction 1 as [x e Hx|x y e Hx _ IH]; [apply anc_parent|eapply anc_up; [|exact IH]]; by rewrite list_lookup_fmap, Hx.
  - induction 1 as [x e Hx|x y e Hx _ IH]; rewrite list_lookup_fmap in Hx; destruct (par !! x) as [z|] eqn:E; try done; injection Hx as ->; [by apply above_parent|by eapply above_up].
Qed.
Lemma filter_Some (z : Z) (par : list Z) : length (filter (eq (Some z)) (Some <$> par)) = length (filter (eq z) par).
Proof. induction par as [|y par IH]; [done|]. rewrite fmap_cons, !filter_cons. destruct (decide (Some z = Some y)), (decide (z = y)); cbn; congruence. Qed.
Lemma mapM_Some (par : list (option Z)) : (forall i, i < length par -> exists z, par !! i = Some (Some z)) -> exists par', mapM (fun p => p) par = Some par' /\ par = Some <$> par'.
Proof.
  intros Hp. destruct (mapM_total (fun p => p) par) as (par' & E & Hl & Hs). { intros i a Ha. destruct (Hp i) as [z Hz]; [by eapply lookup_lt_Some|]. rewrite Ha in Hz. injection Hz as ->. done. }
  exists par'. split; [done|]. apply list_eq. intros i. rewrite list_lookup_fmap. destruct (par !! i) as [a|] eqn:E1.
  - rewrite (Hs i a E1). destruct (Hp i) as [z Hz]; [by eapply lookup_lt_Some|]. rewrite E1 in Hz. by injection Hz as ->.
  - apply lookup_ge_None in E1. rewrite lookup_ge_None_2 by lia. done.
Qed.
(** membership in the tree *)
Lemma tree_in w a b : (w, (a, b)) ∈ tree -> a < n /\ b < n /\ a <> b /\ weq ltb w (pair_weight dl metric a b) = true.
Proof.
  destruct HR as (F & _ & _ & HSp & _ & Ee & HW). intros (e & [= -> -> ->] & He)%elem_of_list_fmap.
  assert (ends e ∈ (ren perm <$> F)) as (p & Ep & Hp)%elem_of_list_fmap by (rewrite <- Ee; by apply elem_of_list_fmap_1).
  specialize (HW e He). unfold ends in *. cbn in HW. unfold ren in Ep. injection Ep as E1 E2. destruct p as [x y]. destruct (proj1 HSp x y Hp) as (Hx & Hy & Hne). cbn in E1, E2.
  rewrite E1, E2 in HW |- *. split; [by apply (ren_lt perm Hperm)|]. split; [by apply (ren_lt perm Hperm)|]. split; [|done]. intros E. apply Hne. by apply (ren_inj perm Hperm).
Qed.
Lemma tree_edge F : ends <$> es = ren perm <$> F -> forall x y, (x, y) ∈ F -> exists w, (w, (P x, P y)) ∈ tree.
Proof.
  intros Ee x y Hp. assert ((P x, P y) ∈ (ends <$> es)) as (e & E1 & He)%elem_of_list_fmap. { rewrite Ee. apply elem_of_list_fmap. by exists (x, y). }
  exists (w_weight e). apply elem_of_list_fmap. exists e. rewrite E1. done.
Qed.

Lemma union_find_ok : dendrogram_of ltb es (fun par heights => Dendrogram ltb n (pair_weight dl metric) par heights).
Proof.
  intros sorted HPm Hsort. pose proof n2 as Hn2. pose proof HR as (F & _ & HFl & HSp & HK & Ee & HW).
  assert (length es = n - 1) as Hesl. { rewrite <- (fmap_length ends es), Ee, fmap_length. done. }
  assert (length sorted = n - 1) as Hsl. { rewrite (Permutation_length HPm), fmap_length. done. }
  assert (length (snd <$> sorted) = n - 1) as Hel by (by rewrite fmap_length).
  assert (Hedge : forall a b, (a, b) ∈ (snd <$> sorted) <-> exists w, (w, (a, b)) ∈ tree).
  { intros a b. rewrite elem_of_list_fmap. split.
    - intros ([w ab] & E & Hin). cbn in E. subst ab. exists w. by rewrite <- HPm.
    - intros [w Hw]. exists (w, (a, b)). split; [done|]. by rewrite HPm. }
  assert (PropertiesDendrogram.SpanningTree (snd <$> sorted)) as HST.
  { split.
    - intros e a b He. apply elem_of_list_lookup_2, Hedge in He as [w Hw]. apply tree_in in Hw. lia.
    - intros u v Hu Hv. rewrite Hel in *. destruct (pos_spec perm Hperm u) as [Pu1 Pu2]; [lia|]. destruct (pos_spec perm Hperm v) as [Pv1 Pv2]; [lia|]. unfold Within. rewrite <- Pu2, <- Pv2.
      eapply (conn_map P); [|by apply HSp]. intros a b Hab. destruct (tree_edge F Ee a b Hab) as [w Hw].
      assert ((P a, P b) ∈ (snd <$> sorted)) as [e He]%elem_of_list_lookup by (apply Hedge; by exists w). exists e. split; [|done]. apply lookup_lt_Some in He. lia. }
  assert (Hss : StronglySorted (fun x y : W * (nat * nat) => negb (ltb (fst y) (fst x)) = true) sorted).
  { apply Sorted_StronglySorted in Hsort; [|intros x y z Hxy Hyz; by apply (w_trans ltb SW _ (fst y))]. clear -Hsort. induction Hsort as [|x l _ IH Hall]; constructor; [done|]. eapply Forall_impl; [exact Hall|]. intros y E. cbn in *. by rewrite E. }
  assert (tree <> []) as Hne. { intros E. apply (f_equal length) in E. rewrite fmap_length in E. cbn in E. lia. }
  destruct (C29_single_linkage (snd <$> sorted)) as (par & Hd & SL); [|exact HST|]. { intros E. rewrite E in Hel. cbn in Hel. lia. }
  destruct (C29_cut W (fun a b => negb (ltb b a))) with (tree := tree) (sorted := sorted) as (par2 & Hd2 & Hmono & Hcut); [|done|by symmetry|done|done|].
  { intros a b c H1 H2. apply negb_true_iff in H1, H2. apply negb_true_iff. by apply (w_trans ltb SW _ b). }
  rewrite Hd in Hd2. injection Hd2 as <-. rewrite fmap_length in Hcut. destruct SL as [S1 S2 S3 S4 _ S6]. rewrite Hel in *. rewrite Hesl in Hcut.
  destruct (mapM_Some par) as (par' & E & ->).
  { intros i Hi. rewrite S1 in Hi. destruct (decide (i < n - 1 - 1)) as [L|L]; [destruct (S3 i L) as (e & -> & _); by eexists|].
    destruct (decide (i = n - 1 - 1)) as [->|L2]; [rewrite S2; by eexists|]. destruct (S4 (i - (n - 1))) as (e & Hv & _); [lia|]. replace (n - 1 + (i - (n - 1))) with i in Hv by lia. rewrite Hv. by eexists. }
  rewrite Hd. cbn [mbind option_bind]. rewrite E. rewrite fmap_length in S1.
  assert (Hlk : forall i z, (Some <$> par') !! i = Some (Some z) -> par' !! i = Some z). { intros i z. rewrite list_lookup_fmap. destruct (par' !! i); cbn; congruence. }
  constructor.
  - lia.
  - by rewrite fmap_length.
  - apply Hlk. replace (n - 2) with (n - 1 - 1) by lia. done.
  - intros i Hi. destruct (S3 i) as (j & Hp & Hj & _); [lia|]. destruct (lookup_lt_is_Some_2 (fst <$> sorted) i) as [hi Hhi]; [rewrite fmap_length; lia|]. destruct (lookup_lt_is_Some_2 (fst <$> sorted) j) as [hj Hhj]; [rewrite fmap_length; lia|].
    exists j, hi, hj. split; [by apply Hlk|]. split; [lia|]. split; [done|]. split; [done|]. specialize (Hmono i j hi hj Hp Hhi Hhj). by apply negb_true_iff in Hmono.
  - intros v Hv. destruct (S4 v) as (j & Hp & Hj & _); [lia|]. exists j. split; [by apply Hlk|done].
  - intros j Hj. rewrite <- filter_Some. by apply S6.
  - intros u v h Hu Hv Huv. transitivity (Conn (fun a b => exists w, (w, (a, b)) ∈ tree /\ negb (ltb h w) = true) u v).
    { rewrite (Hcut h u v) by lia. split.
      - intros (e & he & A1 & A2 & Hh & Hl). right. exists e, he. rewrite <- !above_ancestor. split; [done|]. split; [by apply negb_true_iff|done].
      - intros [?|(e & w & Hw & Hl & A1 & A2)]; [done|]. exists e, w. rewrite !above_ancestor. split; [done|]. split; [done|]. split; [done|]. by apply negb_true_iff in Hl. }
    split.
    + apply conn_mono. intros a b (w & Hw & Hl). apply negb_true_iff in Hl. destruct (tree_in w a b Hw) as (Ha & Hb & Hab & E2). apply weq_true in E2 as [E2 E3]. split_and!; [done|done|done|]. by apply (w_trans ltb SW _ w).
    + apply conn_bind. intros a b (Ha & Hb & Hab & Hl). destruct (pos_spec perm Hperm a Ha) as [Pa1 Pa2], (pos_spec perm Hperm b Hb) as [Pb1 Pb2].
      assert (Pr n (pos perm a, pos perm b)) as Hp. { split_and!; [done|done|cbn; congruence]. }
      rewrite <- Pa2, <- Pb2. eapply (conn_map P); [|apply (pair_conn n _ (plt_order ltb SW wt n NB wsym) F HK HSp _ _ Hp)]. intros x y [Hxy Hlt].
      destruct (tree_edge F Ee x y Hxy) as [w Hw]. exists w. split; [done|]. apply negb_true_iff. destruct (tree_in _ _ _ Hw) as (_ & _ & _ & E2). apply weq_true in E2 as [E2 E3].
      apply (plt_weight ltb SW wt n NB wsym) in Hlt; [|exact (proj1 HSp x y Hxy)|exact Hp]. unfold BoruvkaSearch.wt in Hlt. cbn [fst snd] in Hlt. rewrite Pa2, Pb2 in Hlt.
      apply (w_trans ltb SW _ (pair_weight dl metric (P x) (P y))); [done|]. by apply (w_trans ltb SW _ (pair_weight dl metric a b)).
Qed.
End UnionFind.
