(** Minimum spanning trees: exchange argument. *)
From Verif Require Export MstSpec.
From Coq Require Import Lqa.
Local Open Scope nat_scope.

Lemma conn_refl (R : nat -> nat -> Prop) a : Conn R a a. Proof. apply rst_refl. Qed.
Lemma conn_sym (R : nat -> nat -> Prop) a b : Conn R a b -> Conn R b a. Proof. apply rst_sym. Qed.
Lemma conn_trans (R : nat -> nat -> Prop) a b c : Conn R a b -> Conn R b c -> Conn R a c. Proof. apply rst_trans. Qed.
Lemma conn_step (R : nat -> nat -> Prop) a b : R a b -> Conn R a b. Proof. apply rst_step. Qed.
Lemma conn_bind (R R' : nat -> nat -> Prop) : (forall a b, R a b -> Conn R' a b) -> forall a b, Conn R a b -> Conn R' a b.
Proof. intros H a b Hc. induction Hc; eauto using conn_refl, conn_sym, conn_trans. Qed.
Lemma conn_mono (R R' : nat -> nat -> Prop) : (forall a b, R a b -> R' a b) -> forall a b, Conn R a b -> Conn R' a b.
Proof. intros H. apply conn_bind. intros. by apply conn_step, H. Qed.
Lemma conn_rev (R : nat -> nat -> Prop) a b : R b a -> Conn R a b. Proof. intros. by apply conn_sym, conn_step. Qed.
(** a set closed under the relation is closed under connection *)
Lemma conn_closed (R : nat -> nat -> Prop) (P : nat -> Prop) : (forall a b, R a b -> P a <-> P b) -> forall a b, Conn R a b -> P a <-> P b.
Proof. intros H a b Hc. induction Hc as [a b Hab|a|a b _ IH|a b c _ IH1 _ IH2]; [by apply H|done|by symmetry|by rewrite IH1]. Qed.

Lemma conn_add (R R' : nat -> nat -> Prop) x y : (forall a b, R' a b -> Conn R a b \/ (a = x /\ b = y) \/ (a = y /\ b = x)) ->
  forall a b, Conn R' a b -> Conn R a b \/ (Conn R a x /\ Conn R y b) \/ (Conn R a y /\ Conn R x b).
Proof.
  intros H a b Hc. induction Hc as [a b Hab|a|a b _ IH|a b c _ IH1 _ IH2].
  - destruct (H _ _ Hab) as [?|[[-> ->]|[-> ->]]]; [by left|right; left|right; right]; eauto using conn_refl.
  - left. apply conn_refl.
  - destruct IH as [IH|[[H1 H2]|[H1 H2]]]; [left|right; right|right; left]; eauto using conn_sym.
  - destruct IH1 as [I1|[[H1 H2]|[H1 H2]]], IH2 as [I2|[[K1 K2]|[K1 K2]]];
      try (left; by eauto using conn_trans, conn_sym);
      try (right; left; split; by eauto using conn_trans, conn_sym);
      try (right; right; split; by eauto using conn_trans, conn_sym).
Qed.

Section Order.
Context (n : nat) (lt : nat * nat -> nat * nat -> bool) (PO : PairOrder n lt).
Notation SW := (po_weak n lt PO).

Lemma lt_swap p q : lt p (q.2, q.1) = lt p q.
Proof.
  destruct (lt p q) eqn:E.
  - destruct (lt p (q.2, q.1)) eqn:E2; [done|]. pose proof (po_swap n lt PO (q.2, q.1)) as H. cbn in H. rewrite <- surjective_pairing in H.
    pose proof (sw_incomp _ SW _ _ _ E2 H). congruence.
  - apply (sw_incomp _ SW _ q); [done|]. apply (po_swap n lt PO).
Qed.
Lemma lt_swap_l p q : lt (p.2, p.1) q = lt p q.
Proof.
  destruct (lt p q) eqn:E.
  - destruct (lt (p.2, p.1) q) eqn:E2; [done|]. pose proof (sw_incomp _ SW _ _ _ (po_swap n lt PO p) E2). congruence.
  - apply (sw_incomp _ SW _ p); [|done]. pose proof (po_swap n lt PO (p.2, p.1)) as H. cbn in H. by rewrite <- surjective_pairing in H.
Qed.
Lemma lt_same p q r : SamePair p q -> lt p r = lt q r.
Proof. intros [->| ->]; [done|]. by rewrite lt_swap_l. Qed.
Lemma lt_same_r p q r : SamePair p q -> lt r p = lt r q.
Proof. intros [->| ->]; [done|]. by rewrite lt_swap. Qed.

Definition Proper (S : list (nat * nat)) : Prop := forall e, e ∈ S -> e.1 < n /\ e.2 < n /\ e.1 <> e.2.
Definition Below (S : list (nat * nat)) (f : nat * nat) (a b : nat) : Prop := (a, b) ∈ S /\ lt (a, b) f = true.

(** The largest edge of a list. *)
Lemma max_edge S : S <> [] -> exists g, g ∈ S /\ forall e, e ∈ S -> lt g e = false.
Proof.
  induction S as [|a S IH]; [done|]. intros _. destruct S as [|b S].
  - exists a. split; [by left|]. intros e He%elem_of_list_singleton. subst. apply (sw_irrefl _ SW).
  - destruct IH as (g & Hg & Hmax); [done|]. destruct (lt g a) eqn:E.
    + exists a. split; [by left|]. intros e [->|He]%elem_of_cons; [apply (sw_irrefl _ SW)|].
      destruct (lt a e) eqn:E2; [|done]. pose proof (sw_trans _ SW _ _ _ E E2). rewrite Hmax in H; done.
    + exists g. split; [by right|]. intros e [->|He]%elem_of_cons; [done|]. by apply Hmax.
Qed.

(** The critical edge between two connected vertices: they are connected by it and smaller ones, but not by smaller ones. *)
Lemma critical S : Proper S -> forall a b, Conn (InList S) a b -> a <> b ->
  exists f, f ∈ S /\ ((Conn (Below S f) a f.1 /\ Conn (Below S f) f.2 b) \/ (Conn (Below S f) a f.2 /\ Conn (Below S f) f.1 b)).
Proof.
  remember (length S) as k eqn:Hk. revert S Hk. induction (Wf_nat.lt_wf k) as [k _ IH]. intros S -> HP a b Hc Hab.
  destruct S as [|e0 S0].
  { exfalso. apply Hab. assert (forall x y, Conn (InList []) x y -> x = y) as H; [|by apply H].
    intros x y Hxy. induction Hxy as [x y Hr| | |]; try congruence. by apply elem_of_nil in Hr. }
  destruct (max_edge (e0 :: S0)) as (g & Hg & Hmax); [done|]. set (S := e0 :: S0) in *.
  set (S' := base.filter (fun e => lt e g = true) S).
  assert (Hlen : length S' < length S).
  { destruct (elem_of_list_split S g Hg) as (l1 & l2 & E). unfold S'. rewrite E, filter_app, filter_cons_False by (rewrite (sw_irrefl _ SW); done). rewrite !app_length. cbn [length]. pose proof (filter_length (fun e => lt e g = true) l1).
    pose proof (filter_length (fun e => lt e g = true) l2). lia. }
  assert (Hsub : forall e, e ∈ S' <-> e ∈ S /\ lt e g = true) by (intros e; unfold S'; rewrite elem_of_list_filter; tauto).
  assert (Hsame : forall e, e ∈ S -> lt e g = false -> SamePair g e).
  { intros e He Hl. destruct (HP g Hg) as (? & ? & ?), (HP e He) as (? & ? & ?). apply (po_total n lt PO); auto. }
  assert (Hc' : Conn (InList S') a b \/ (Conn (InList S') a g.1 /\ Conn (InList S') g.2 b) \/ (Conn (InList S') a g.2 /\ Conn (InList S') g.1 b)).
  { apply (conn_add _ (InList S)); [|done]. intros x y Hxy. unfold InList in *. destruct (lt (x, y) g) eqn:E.
    - left. apply conn_step. by apply Hsub.
    - destruct (Hsame _ Hxy E) as [E'| E']; right; [left; by rewrite <- E'|right]. by injection E' as -> ->. }
  destruct Hc' as [Hc'|Hc'].
  - destruct (IH (length S') Hlen S' eq_refl) with (a := a) (b := b) as (f & Hf & H); auto.
    { intros e He. apply HP, Hsub, He. }
    exists f. split; [by apply Hsub|]. assert (forall x y, Conn (Below S' f) x y -> Conn (Below S f) x y) as HM.
    { apply conn_mono. intros x y [Hin ?]. split; [by apply Hsub|done]. }
    destruct H as [[? ?]|[? ?]]; [left|right]; auto.
  - exists g. split; [done|]. assert (forall x y, Conn (InList S') x y -> Conn (Below S g) x y) as HM.
    { apply conn_mono. intros x y Hin. by apply Hsub. }
    destruct Hc' as [[? ?]|[? ?]]; [left|right]; auto.
Qed.

(** Exchange: a Kruskal edge can replace a larger, non-Kruskal edge of any spanning list. *)
Lemma exchange S e : Spans n S -> Kruskal n lt e ->
  (exists e', e' ∈ S /\ SamePair e e') \/
  exists f, f ∈ S /\ lt e f = true /\ ~ Kruskal n lt f /\
    forall S', (forall g, g ∈ S -> ~ SamePair f g -> g ∈ S') -> e ∈ S' -> forall a b, Conn (InList S) a b -> Conn (InList S') a b.
Proof.
  intros [HP HS] (H1 & H2 & H3 & HK). assert (HPr : Proper S) by (intros [a b] He; by apply HP).
  destruct (critical S HPr e.1 e.2) as (f & Hf & Hcr); [by apply HS|done|]. destruct (HPr f Hf) as (F1 & F2 & F3).
  destruct (lt f e) eqn:Efe.
  { exfalso. apply HK. assert (forall x y, Conn (Below S f) x y -> Conn (fun a b => a < n /\ b < n /\ lt (a, b) e = true) x y) as HM.
    { apply conn_mono. intros x y [Hin Hl]. destruct (HPr _ Hin) as (? & ? & ?). split_and!; [done..|]. by apply (sw_trans _ SW _ f). }
    assert (Conn (fun a b => a < n /\ b < n /\ lt (a, b) e = true) f.1 f.2) as Hff.
    { apply conn_step. split_and!; [done..|]. by rewrite <- surjective_pairing. }
    destruct Hcr as [[Ha Hb]|[Ha Hb]]; apply HM in Ha, Hb; eauto using conn_trans, conn_sym. }
  destruct (lt e f) eqn:Eef.
  2:{ left. exists f. split; [done|]. by apply (po_total n lt PO). }
  right. exists f. split_and!; [done|done| |].
  - intros (_ & _ & _ & HKf). apply HKf. set (Bf := fun a b => a < n /\ b < n /\ lt (a, b) f = true).
    assert (forall x y, Conn (Below S f) x y -> Conn Bf x y) as HM.
    { apply conn_mono. intros x y [Hin Hl]. destruct (HPr _ Hin) as (? & ? & ?). done. }
    assert (Conn Bf e.1 e.2) as He. { apply conn_step. split_and!; [done..|]. by rewrite <- surjective_pairing. }
    destruct Hcr as [[Ha Hb]|[Ha Hb]]; apply HM in Ha, Hb; eauto using conn_trans, conn_sym.
  - intros S' HS' HeS'. apply conn_bind. intros a b Hab. destruct (lt (a, b) f) eqn:E1.
    { apply conn_step, HS'; [done|]. intros HSame. rewrite <- (lt_same _ _ _ HSame), (sw_irrefl _ SW) in E1. done. }
    destruct (lt f (a, b)) eqn:E2.
    { apply conn_step, HS'; [done|]. intros HSame. rewrite <- (lt_same_r _ _ _ HSame), (sw_irrefl _ SW) in E2. done. }
    assert (SamePair f (a, b)) as HSame. { destruct (HPr _ Hab) as (? & ? & ?). apply (po_total n lt PO); auto. }
    assert (Conn (InList S') f.1 f.2) as Hff.
    { assert (forall x y, Conn (Below S f) x y -> Conn (InList S') x y) as HM.
      { apply conn_mono. intros x y [Hin Hl]. apply HS'; [done|]. intros Hs. rewrite <- (lt_same _ _ _ Hs), (sw_irrefl _ SW) in Hl. done. }
      assert (Conn (InList S') e.1 e.2) as He. { apply conn_step. unfold InList. by rewrite <- surjective_pairing. }
      destruct Hcr as [[Ha Hb]|[Ha Hb]]; apply HM in Ha, Hb; eauto using conn_trans, conn_sym. }
    destruct HSame as [E|E]; [rewrite <- E in Hff; exact Hff|]. injection E as -> ->. by apply conn_sym.
Qed.

(** A spanning tree made of Kruskal edges contains all of them. *)
Lemma kruskal_all F : Spans n F -> (forall e, e ∈ F -> Kruskal n lt e) -> forall e, Kruskal n lt e -> exists e', e' ∈ F /\ SamePair e e'.
Proof.
  intros HS HK e He. destruct (exchange F e HS He) as [H|(f & Hf & _ & Hnot & _)]; [done|]. exfalso. by apply Hnot, HK.
Qed.
End Order.

(** ** Total weight *)
Section Weight.
Context (n : nat) (lt : nat * nat -> nat * nat -> bool) (PO : PairOrder n lt) (val : nat -> nat -> Q).
Hypothesis Hnn : forall a b, a < n -> b < n -> (0 <= val a b)%Q.
Hypothesis Hsym : forall a b, (val a b == val b a)%Q.
Hypothesis Hmono : forall e f, lt e f = true -> (val e.1 e.2 <= val f.1 f.2)%Q.

Lemma total_app S S' : (total_weight val (S ++ S') == total_weight val S + total_weight val S')%Q.
Proof. unfold total_weight. induction S as [|e S IH]; cbn; [lra|]. cbn in IH. rewrite IH. lra. Qed.
Lemma total_perm S S' : S ≡ₚ S' -> (total_weight val S == total_weight val S')%Q.
Proof. unfold total_weight. induction 1; cbn in *; lra. Qed.
Lemma total_nonneg S : Proper n S -> (0 <= total_weight val S)%Q.
Proof.
  unfold total_weight. induction S as [|e S IH]; intros HP; cbn; [lra|]. assert (0 <= val e.1 e.2)%Q. { apply Hnn; apply (HP e); by left. }
  assert (0 <= total_weight val S)%Q by (apply IH; intros f Hf; apply HP; by right). unfold total_weight in *. cbn in *. lra.
Qed.
Lemma val_same e f : SamePair e f -> (val e.1 e.2 == val f.1 f.2)%Q.
Proof. intros [->| ->]; [done|]. cbn. apply Hsym. Qed.

(** An edge list containing all edges of F (up to direction), F without repetition, weighs at least as much. *)
Definition NoRepeat (F : list (nat * nat)) : Prop := forall i j e f, F !! i = Some e -> F !! j = Some f -> SamePair e f -> i = j.
Lemma norepeat_cons e F : NoRepeat (e :: F) -> NoRepeat F /\ forall f, f ∈ F -> ~ SamePair e f.
Proof.
  intros H. split.
  - intros i j a b Hi Hj Hs. specialize (H (S i) (S j) a b Hi Hj Hs). lia.
  - intros f Hf Hs. apply elem_of_list_lookup in Hf as [j Hj]. specialize (H 0 (S j) e f eq_refl Hj Hs). lia.
Qed.
Lemma same_sym e f : SamePair e f -> SamePair f e.
Proof. intros [->| ->]; [by left|]. right. cbn. apply surjective_pairing. Qed.
Lemma same_trans e f g : SamePair e f -> SamePair f g -> SamePair e g.
Proof. intros [->| ->] [->| ->]; cbn; [by left|by right|by right|]. left. by rewrite <- surjective_pairing. Qed.
Lemma total_sub F : NoRepeat F -> forall S, Proper n S -> (forall e, e ∈ F -> exists e', e' ∈ S /\ SamePair e e') -> (total_weight val F <= total_weight val S)%Q.
Proof.
  induction F as [|e F IH]; intros HN S HP Hsub; [cbn; by apply total_nonneg|].
  destruct (norepeat_cons _ _ HN) as [HN' Hne]. destruct (Hsub e) as (e' & He' & Hs); [by left|].
  destruct (elem_of_list_split S e' He') as (l1 & l2 & ->).
  assert (total_weight val F <= total_weight val (l1 ++ l2))%Q as HI.
  { apply IH; [done| |].
    - intros g Hg. apply HP. apply elem_of_app in Hg. apply elem_of_app. destruct Hg; [by left|right; by right].
    - intros g Hg. destruct (Hsub g) as (g' & Hg' & Hgs); [by right|]. exists g'. split; [|done].
      apply elem_of_app in Hg' as [?|[->|?]%elem_of_cons]; [apply elem_of_app; by left| |apply elem_of_app; by right].
      exfalso. apply (Hne g Hg). apply (same_trans _ e'); [done|]. by apply same_sym. }
  rewrite total_app in HI |- *. unfold total_weight in *. cbn in *. pose proof (val_same _ _ Hs). lra.
Qed.

(** The edges of F missing from S. *)
Definition missing (F S : list (nat * nat)) : nat := length (base.filter (fun e => Forall (fun g => ~ SamePair e g) S) F).
Global Instance same_dec e f : Decision (SamePair e f). Proof. unfold SamePair. apply _. Qed.

Lemma mst_total F : NoRepeat F -> (forall e, e ∈ F -> Kruskal n lt e) -> forall S, Spans n S -> (total_weight val F <= total_weight val S)%Q.
Proof.
  intros HN HK S. remember (length (base.filter (fun e => Forall (fun g => ~ SamePair e g) S) F)) as k eqn:Hk. revert S Hk.
  induction (Wf_nat.lt_wf k) as [k _ IH]. intros S -> HS.
  destruct (base.filter (fun e => Forall (fun g => ~ SamePair e g) S) F) as [|e rest] eqn:Ef.
  - apply total_sub; [done|intros [a b] He; by apply HS|]. intros e He.
    destruct (decide (Forall (fun g => ~ SamePair e g) S)) as [HF|HF].
    + exfalso. assert (e ∈ @nil (nat * nat)) as Hin; [|by apply elem_of_nil in Hin]. rewrite <- Ef. by apply elem_of_list_filter.
    + apply not_Forall_Exists in HF; [|apply _]. apply Exists_exists in HF as (e' & He' & Hs). exists e'. split; [done|]. by apply dec_stable.
  - assert (e ∈ e :: rest) as He by (by left). rewrite <- Ef in He. apply elem_of_list_filter in He as [HeS HeF].
    rewrite Forall_forall in HeS. destruct (exchange n lt PO S e HS (HK e HeF)) as [(e' & He' & Hs)|(f & Hf & Hlt & Hnot & Hconn)].
    { exfalso. by apply (HeS e'). }
    destruct (elem_of_list_split S f Hf) as (l1 & l2 & ->). set (S' := e :: l1 ++ l2).
    assert (HS' : Spans n S').
    { destruct HS as [HP HC]. split.
      - intros a b [E|Hin]%elem_of_cons.
        + destruct (HK e HeF) as (? & ? & ? & _). rewrite <- E in *. done.
        + apply HP. apply elem_of_app in Hin. apply elem_of_app. destruct Hin; [by left|right; by right].
      - intros a b Ha Hb. apply (Hconn S'); [|by left|by apply HC]. intros g Hg Hns. right.
        apply elem_of_app in Hg as [?|[->|?]%elem_of_cons]; [apply elem_of_app; by left| |apply elem_of_app; by right].
        exfalso. apply Hns. by left. }
    assert (total_weight val F <= total_weight val S')%Q as HI.
    { eapply (IH _); [|reflexivity|done]. rewrite <- Ef. 
      assert (Hin : forall g, g ∈ F -> Forall (fun h => ~ SamePair g h) S' -> Forall (fun h => ~ SamePair g h) (l1 ++ f :: l2)).
      { intros g Hg HF. apply Forall_cons in HF as [H1 H2]. apply Forall_app in H2 as [H2 H3]. apply Forall_app. split; [done|].
        apply Forall_cons. split; [|done]. intros Hs. apply Hnot. destruct (HK g Hg) as (K1 & K2 & K3 & K4). destruct Hs as [->| ->]; [done|].
        split_and!; cbn; [done|done|congruence|]. intros Hc. apply K4. apply conn_sym. revert Hc. apply conn_mono. intros x y (? & ? & Hl).
        split_and!; [done..|]. by rewrite <- (lt_swap n lt PO). }
      assert (forall F0, (forall g, g ∈ F0 -> g ∈ F) ->
        length (base.filter (fun g => Forall (fun h => ~ SamePair g h) S') F0) <= length (base.filter (fun g => Forall (fun h => ~ SamePair g h) (l1 ++ f :: l2)) F0)
        /\ (e ∈ F0 -> length (base.filter (fun g => Forall (fun h => ~ SamePair g h) S') F0) < length (base.filter (fun g => Forall (fun h => ~ SamePair g h) (l1 ++ f :: l2)) F0))) as Hcount.
      { induction F0 as [|g F0 IHF]; intros Hsub; [split; [done|]; by intros ?%elem_of_nil|].
        destruct IHF as [IH1 IH2]; [intros; apply Hsub; by right|]. rewrite !filter_cons.
        split.
        - destruct (decide (Forall (fun h => ~ SamePair g h) S')) as [D|D].
          + rewrite decide_True by (apply Hin; [apply Hsub; by left|done]). cbn. lia.
          + destruct (decide _); cbn; lia.
        - intros [->|He]%elem_of_cons.
          + rewrite decide_False; [|intros HF; apply Forall_cons in HF as [HF _]; apply HF; by left].
            rewrite decide_True by (apply Forall_forall; intros; by apply HeS). cbn. lia.
          + specialize (IH2 He). destruct (decide (Forall (fun h => ~ SamePair g h) S')) as [D|D].
            * rewrite decide_True by (apply Hin; [apply Hsub; by left|done]). cbn. lia.
            * destruct (decide _); cbn; lia. }
      apply Hcount; done. }
    pose proof (Hmono _ _ Hlt). unfold S' in HI. rewrite total_app. unfold total_weight in *. cbn in *.
    pose proof (total_app l1 l2) as HA. unfold total_weight in HA. lra.
Qed.

Lemma kruskal_norepeat_mst F : NoRepeat F -> length F = n - 1 -> Spans n F -> (forall e, e ∈ F -> Kruskal n lt e) -> MinimumSpanningTree n val F.
Proof. intros HN HL HS HK. split; [done|]. by apply mst_total. Qed.
End Weight.
