(** Subdividing keeps the invariant. *)
From Verif Require Import SurfaceModel SurfaceSpec SurfaceProof.
Local Open Scope nat_scope.

Definition half (es : list edge) (e b : nat) : nat := match es !! e with Some (x, _) => if x =? b then 2 * e else 2 * e + 1 | None => 0 end.
Lemma half_cases es e b : e < length es -> half es e b = 2 * e \/ half es e b = 2 * e + 1.
Proof. intros He. unfold half. destruct (lookup_lt_is_Some_2 es e He) as [[x y] ->]. destruct (x =? b); tauto. Qed.
Lemma half_inj es e b c : joins es e b c -> b <> c -> half es e b <> half es e c.
Proof. unfold half. intros [-> | ->] H; rewrite Nat.eqb_refl; destruct (Nat.eqb_spec b c), (Nat.eqb_spec c b); lia. Qed.
Lemma half_div es e b : e < length es -> half es e b / 2 = e.
Proof. intros He. destruct (half_cases es e b He) as [-> | ->]; lia. Qed.

Lemma halves_length nv es : length (halves nv es) = 2 * length es.
Proof.
  unfold halves. rewrite (concat_block_length _ 2); [by rewrite imap_length|]. intros l Hl. apply elem_of_list_lookup in Hl as [i Hl]. rewrite list_lookup_imap in Hl. apply fmap_Some in Hl as (e & _ & ->). done.
Qed.
Lemma halves_lookup nv es i j : j < 2 -> halves nv es !! (2 * i + j) = e ← es !! i; [(e.1, nv + i); (e.2, nv + i)] !! j.
Proof.
  intros Hj. unfold halves. rewrite (concat_block _ 2); [|by intros l Hl; apply elem_of_list_lookup in Hl as [k Hl]; rewrite list_lookup_imap in Hl; apply fmap_Some in Hl as (e & _ & ->)|done].
  rewrite list_lookup_imap. by destruct (es !! i).
Qed.
Lemma halves_half nv es e b c : joins es e b c -> halves nv es !! half es e b = Some (b, nv + e).
Proof.
  intros H. unfold half. destruct H as [H|H]; rewrite H.
  - rewrite Nat.eqb_refl. replace (2 * e) with (2 * e + 0) by lia. by rewrite halves_lookup, H by lia.
  - destruct (Nat.eqb_spec c b) as [->|].
    + replace (2 * e) with (2 * e + 0) by lia. by rewrite halves_lookup, H by lia.
    + by rewrite halves_lookup, H by lia.
Qed.
Lemma halves_inv nv es h p : halves nv es !! h = Some p -> exists e b c, joins es e b c /\ (b <> c -> h = half es e b) /\ p = (b, nv + e).
Proof.
  intros H. pose proof (lookup_lt_Some _ _ _ H) as Hlt. rewrite halves_length in Hlt. destruct (lookup_lt_is_Some_2 es (h / 2)) as [[x y] Hx]; [lia|].
  assert (h = 2 * (h / 2) + h mod 2) as Eh by lia. rewrite Eh, halves_lookup, Hx in H by lia. simpl in H.
  destruct (h mod 2) as [|[|]] eqn:Em; [| |lia].
  - simpl in H. injection H as <-. exists (h / 2), x, y. split; [by left|]. split; [|done]. intros _. unfold half. rewrite Hx, Nat.eqb_refl. lia.
  - simpl in H. injection H as <-. exists (h / 2), y, x. split; [by right|]. split; [|done]. intros Hn. unfold half. rewrite Hx. destruct (Nat.eqb_spec x y); [congruence|lia].
Qed.

Lemma corner_ok nv es enew e e' a b c : joins es e a b -> joins es e' b c -> a <> b -> b <> c -> c <> a ->
  corner (halves nv es) enew e e' = Some ((nv + e, nv + e'), (half es e b, half es e' b, enew)).
Proof.
  intros H0 H1 N1 N2 N3. unfold corner.
  assert (a =? b = false) as Q1 by (by apply Nat.eqb_neq). assert (b =? a = false) as Q2 by (apply Nat.eqb_neq; congruence).
  assert (b =? c = false) as Q3 by (by apply Nat.eqb_neq). assert (c =? b = false) as Q4 by (apply Nat.eqb_neq; congruence).
  assert (a =? c = false) as Q5 by (apply Nat.eqb_neq; congruence). assert (c =? a = false) as Q6 by (by apply Nat.eqb_neq).
  replace (2 * e) with (2 * e + 0) by lia. replace (2 * e' ) with (2 * e' + 0) by lia. replace (2 * e + 0 + 1) with (2 * e + 1) by lia. replace (2 * e' + 0 + 1) with (2 * e' + 1) by lia.
  rewrite !halves_lookup by lia. unfold half.
  destruct H0 as [H0|H0], H1 as [H1|H1]; rewrite H0, H1; cbn -[halves Nat.mul Nat.add]; rewrite ?Nat.eqb_refl, ?Q1, ?Q2, ?Q3, ?Q4, ?Q5, ?Q6; cbn -[halves Nat.mul Nat.add];
    rewrite !halves_lookup by lia; rewrite H0, H1; cbn -[halves Nat.mul Nat.add]; rewrite Nat.eqb_refl; do 4 f_equal; lia.
Qed.

Section Split.
Variables (nv : nat) (es : list edge) (ts : list tri).
Hypothesis HI : Inv nv es ts.
Notation ne := (length es).
Notation he := (halves nv es).

(** The four parts of a triangle *)
Definition parts (off : nat) (t : tri) (a b c : nat) : list edge * list tri :=
  let '(e0, e1, e2) := t in
  ([(nv + e0, nv + e1); (nv + e1, nv + e2); (nv + e2, nv + e0)],
   [(half es e0 b, half es e1 b, off); (half es e1 c, half es e2 c, off + 1); (half es e2 a, half es e0 a, off + 2); (off, off + 1, off + 2)]).
Lemma split_triangle_ok off t a b c : tri_at es t a b c -> split_triangle he off t = Some (parts off t a b c).
Proof.
  destruct t as [[e0 e1] e2]. intros [H0 H1 H2 N1 N2 N3]. simpl in *. unfold split_triangle.
  rewrite (corner_ok nv es off e0 e1 a b c), (corner_ok nv es (off + 1) e1 e2 b c a), (corner_ok nv es (off + 2) e2 e0 c a b) by done. done.
Qed.

Definition Parts (rs : list (list edge * list tri)) : Prop :=
  length rs = length ts /\ forall k t, ts !! k = Some t -> exists a b c, tri_at es t a b c /\ rs !! k = Some (parts (2 * ne + 3 * k) t a b c).
Lemma split_ok : exists rs, mapM (fun it : nat * tri => split_triangle he (2 * ne + 3 * it.1) it.2) (imap pair ts) = Some rs /\ Parts rs.
Proof.
  assert (forall l o, (forall t, t ∈ l -> exists a b c, tri_at es t a b c) -> exists rs, mapM (fun it : nat * tri => split_triangle he (2 * ne + 3 * it.1) it.2) (imap (fun i => pair (o + i)) l) = Some rs /\
    length rs = length l /\ forall k t, l !! k = Some t -> exists a b c, tri_at es t a b c /\ rs !! k = Some (parts (2 * ne + 3 * (o + k)) t a b c)) as Hg.
  { induction l as [|t l IH]; intros o Hl; [by exists []|]. destruct (Hl t ltac:(left)) as (a & b & c & Ht). destruct (IH (S o)) as (rs & E & L & H); [intros; apply Hl; by right|].
    exists (parts (2 * ne + 3 * (o + 0)) t a b c :: rs). cbn [imap mapM]. simpl. rewrite (split_triangle_ok _ _ _ _ _ Ht). simpl.
    rewrite (imap_ext _ (fun i => pair (S o + i))) by (intros; simpl; f_equal; lia). rewrite E. simpl. split; [done|]. split; [lia|]. intros [|k] t' Hk.
    - injection Hk as <-. by exists a, b, c.
    - destruct (H k t' Hk) as (a' & b' & c' & ? & ?). exists a', b', c'. split; [done|]. simpl. replace (o + S k) with (S (o + k)) by lia. done. }
  destruct (Hg ts 0 (v_tri _ _ _ HI)) as (rs & E & L & H). exists rs. done.
Qed.

Variable rs : list (list edge * list tri).
Hypothesis HP : Parts rs.
Notation es' := (he ++ concat (map fst rs)).
Notation ts' := (concat (map snd rs)).

Lemma rs_lookup k r : rs !! k = Some r -> exists t a b c, ts !! k = Some t /\ tri_at es t a b c /\ r = parts (2 * ne + 3 * k) t a b c.
Proof.
  intros H. destruct HP as [L HQ]. destruct (lookup_lt_is_Some_2 ts k) as [t Ht]; [rewrite <- L; by eapply lookup_lt_Some|]. destruct (HQ k t Ht) as (a & b & c & HT & Hr). rewrite H in Hr. injection Hr as ->. by exists t, a, b, c.
Qed.
Lemma fst_block l : l ∈ map fst rs -> length l = 3.
Proof. intros Hl. apply elem_of_list_fmap in Hl as (r & -> & Hr). apply elem_of_list_lookup in Hr as [k Hr]. destruct (rs_lookup k r Hr) as ([[e0 e1] e2] & a & b & c & _ & _ & ->). done. Qed.
Lemma snd_block l : l ∈ map snd rs -> length l = 4.
Proof. intros Hl. apply elem_of_list_fmap in Hl as (r & -> & Hr). apply elem_of_list_lookup in Hr as [k Hr]. destruct (rs_lookup k r Hr) as ([[e0 e1] e2] & a & b & c & _ & _ & ->). done. Qed.
Lemma es_length : length es' = 2 * ne + 3 * length ts.
Proof. rewrite app_length, halves_length, (concat_block_length _ 3 fst_block), map_length. by destruct HP as [-> _]. Qed.
Lemma ts_length : length ts' = 4 * length ts.
Proof. rewrite (concat_block_length _ 4 snd_block), map_length. by destruct HP as [-> _]. Qed.
Lemma es_low i : i < 2 * ne -> es' !! i = he !! i.
Proof. intros Hi. apply lookup_app_l. by rewrite halves_length. Qed.
Lemma es_high k j : j < 3 -> es' !! (2 * ne + 3 * k + j) = r ← rs !! k; r.1 !! j.
Proof.
  intros Hj. rewrite lookup_app_r by (rewrite halves_length; lia). rewrite halves_length. replace (2 * ne + 3 * k + j - 2 * ne) with (3 * k + j) by lia. rewrite (concat_block _ 3 fst_block) by done.
  rewrite list_lookup_fmap. by destruct (rs !! k).
Qed.
Lemma ts_lookup k j : j < 4 -> ts' !! (4 * k + j) = r ← rs !! k; r.2 !! j.
Proof. intros Hj. rewrite (concat_block _ 4 snd_block) by done. rewrite list_lookup_fmap. by destruct (rs !! k). Qed.
Lemma ts_inv m t' : ts' !! m = Some t' -> exists k j t a b c, m = 4 * k + j /\ j < 4 /\ ts !! k = Some t /\ tri_at es t a b c /\ rs !! k = Some (parts (2 * ne + 3 * k) t a b c) /\ (parts (2 * ne + 3 * k) t a b c).2 !! j = Some t'.
Proof.
  intros H. assert (m = 4 * (m / 4) + m mod 4) as Em by lia. rewrite Em, ts_lookup in H by lia. destruct (rs !! (m / 4)) as [r|] eqn:Er; [|done]. simpl in H.
  destruct (rs_lookup _ _ Er) as (t & a & b & c & Ht & HT & ->). exists (m / 4), (m mod 4), t, a, b, c. split; [lia|]. split; [lia|]. done.
Qed.

Lemma joins_half e b c : joins es e b c -> joins es' (half es e b) b (nv + e).
Proof. intros H. left. pose proof (halves_half nv es e b c H) as Hh. rewrite es_low; [done|]. apply lookup_lt_Some in Hh. by rewrite halves_length in Hh. Qed.
Lemma joins_half' e b c : joins es e b c -> joins es' (half es e c) c (nv + e).
Proof. intros H. apply joins_sym in H. by eapply joins_half. Qed.

Lemma new_edge_inv i u v : joins es' i u v ->
  (exists e b c, joins es e b c /\ i = half es e b /\ (u = b /\ v = nv + e \/ v = b /\ u = nv + e)) \/
  (exists k e0 e1 e2 j p q, ts !! k = Some (e0, e1, e2) /\ i = 2 * ne + 3 * k + j /\ (j = 0 /\ p = e0 /\ q = e1 \/ j = 1 /\ p = e1 /\ q = e2 \/ j = 2 /\ p = e2 /\ q = e0) /\ (u = nv + p /\ v = nv + q \/ v = nv + p /\ u = nv + q)).
Proof.
  intros Hj. destruct (decide (i < 2 * ne)) as [Hi|Hi].
  - left. unfold joins in Hj. rewrite !es_low in Hj by done. destruct Hj as [Hj|Hj]; destruct (halves_inv _ _ _ _ Hj) as (e & b & c & He & Hh & [= -> ->]); exists e, b, c; destruct (v_edge _ _ _ HI _ _ _ He); split; try done; split; try tauto.
  - right. set (k := (i - 2 * ne) / 3). set (j := (i - 2 * ne) mod 3). assert (i = 2 * ne + 3 * k + j) as Ei by lia. assert (j < 3) as Hj3 by lia.
    assert (exists p, es' !! i = Some p) as [p Hp] by (destruct Hj as [H|H]; eauto). pose proof Hp as Hp'. rewrite Ei, es_high in Hp by done. destruct (rs !! k) as [r|] eqn:Er; [|done]. simpl in Hp.
    destruct (rs_lookup _ _ Er) as ([[e0 e1] e2] & a & b & c & Ht & HT & ->). unfold joins in Hj. rewrite Hp' in Hj. exists k, e0, e1, e2, j. clearbody j k.
    destruct j as [|[|[|j]]]; [| | |lia]; simpl in Hp; injection Hp as <-; do 2 eexists; (split; [done|]); (split; [done|]); (split; [naive_solver|]); destruct Hj as [[= -> ->]|[= -> ->]]; tauto.
Qed.

Lemma tri_distinct t a b c : tri_at es t a b c -> t.1.1 <> t.1.2 /\ t.1.2 <> t.2 /\ t.2 <> t.1.1 /\ t.1.1 < ne /\ t.1.2 < ne /\ t.2 < ne.
Proof.
  intros HT. pose proof (tri_nodup _ _ _ _ _ HT) as HN. destruct HT as [H0 H1 H2 _ _ _]. apply joins_lt in H0, H1, H2. destruct t as [[e0 e1] e2]. simpl in *. rewrite !NoDup_cons, !elem_of_cons, !elem_of_nil in HN. naive_solver.
Qed.
Lemma tri_distinct' k e0 e1 e2 : ts !! k = Some (e0, e1, e2) -> e0 <> e1 /\ e1 <> e2 /\ e2 <> e0 /\ e0 < ne /\ e1 < ne /\ e2 < ne.
Proof. intros H. apply elem_of_list_lookup_2, (v_tri _ _ _ HI) in H as (a & b & c & H). by apply tri_distinct in H. Qed.

Lemma split_edge i u v : joins es' i u v -> u <> v /\ u < nv + ne.
Proof.
  intros Hj. destruct (new_edge_inv _ _ _ Hj) as [(e & b & c & He & _ & H)|(k & e0 & e1 & e2 & j & p & q & Ht & _ & Hpq & H)].
  - pose proof (v_edge _ _ _ HI _ _ _ He). pose proof (joins_lt _ _ _ _ He). lia.
  - pose proof (tri_distinct' _ _ _ _ Ht). lia.
Qed.
Lemma split_uniq i j u v : joins es' i u v -> joins es' j u v -> i = j.
Proof.
  intros Hi Hj. destruct (new_edge_inv _ _ _ Hi) as [(e & b & c & He & Ei & H)|(k & e0 & e1 & e2 & ji & p & q & Ht & Ei & Hpq & H)];
    destruct (new_edge_inv _ _ _ Hj) as [(e' & b' & c' & He' & Ej & H')|(k' & e0' & e1' & e2' & jj & p' & q' & Ht' & Ej & Hpq' & H')].
  - pose proof (v_edge _ _ _ HI _ _ _ He). pose proof (v_edge _ _ _ HI _ _ _ He'). assert (b = b' /\ e = e') as [-> ->] by lia. congruence.
  - pose proof (v_edge _ _ _ HI _ _ _ He). lia.
  - pose proof (v_edge _ _ _ HI _ _ _ He'). lia.
  - pose proof (tri_distinct' _ _ _ _ Ht) as (D1 & D2 & D3 & _). assert (p = p' /\ q = q' \/ p = q' /\ q = p') as Heq by (clear -H H'; lia).
    assert (forall (j p q e0 e1 e2 : nat), (j = 0 /\ p = e0 /\ q = e1 \/ j = 1 /\ p = e1 /\ q = e2 \/ j = 2 /\ p = e2 /\ q = e0) -> p ∈ [e0; e1; e2] /\ q ∈ [e0; e1; e2]) as Hin
      by (clear; intros j p q e0 e1 e2 [(_ & -> & ->)|[(_ & -> & ->)|(_ & -> & ->)]]; rewrite !elem_of_cons; tauto).
    destruct (Hin _ _ _ _ _ _ Hpq) as [Ip Iq]. destruct (Hin _ _ _ _ _ _ Hpq') as [Ip' Iq']. clear Hin.
    assert (p <> q) as Hn by (clear -Hpq D1 D2 D3; destruct Hpq as [(_ & -> & ->)|[(_ & -> & ->)|(_ & -> & ->)]]; congruence).
    assert (k = k') as <-. { apply (v_share _ _ _ HI k k' _ _ p q Ht Ht'); try done; simpl; destruct Heq as [[-> ->]|[-> ->]]; done. }
    rewrite Ht in Ht'. injection Ht' as <- <- <-. clear -Ei Ej Hpq Hpq' Heq D1 D2 D3.
    destruct Hpq as [(-> & -> & ->)|[(-> & -> & ->)|(-> & -> & ->)]], Hpq' as [(-> & -> & ->)|[(-> & -> & ->)|(-> & -> & ->)]], Heq as [[? ?]|[? ?]]; congruence.
Qed.
Lemma split_tri_at k j e0 e1 e2 a b c t' : ts !! k = Some (e0, e1, e2) -> tri_at es (e0, e1, e2) a b c -> rs !! k = Some (parts (2 * ne + 3 * k) (e0, e1, e2) a b c) ->
  (parts (2 * ne + 3 * k) (e0, e1, e2) a b c).2 !! j = Some t' ->
  j = 0 /\ tri_at es' t' (nv + e0) b (nv + e1) \/ j = 1 /\ tri_at es' t' (nv + e1) c (nv + e2) \/ j = 2 /\ tri_at es' t' (nv + e2) a (nv + e0) \/ j = 3 /\ tri_at es' t' (nv + e0) (nv + e1) (nv + e2).
Proof.
  intros Ht HT Hr Hp. pose proof (tri_distinct _ _ _ _ HT) as HD. destruct HT as [H0 H1 H2 N1 N2 N3]. simpl in *.
  pose proof (v_edge _ _ _ HI _ _ _ H0). pose proof (v_edge _ _ _ HI _ _ _ H1). pose proof (v_edge _ _ _ HI _ _ _ H2).
  assert (joins es' (2 * ne + 3 * k) (nv + e0) (nv + e1)) as J0. { left. replace (2 * ne + 3 * k) with (2 * ne + 3 * k + 0) by lia. by rewrite es_high, Hr by lia. }
  assert (joins es' (2 * ne + 3 * k + 1) (nv + e1) (nv + e2)) as J1. { left. by rewrite es_high, Hr by lia. }
  assert (joins es' (2 * ne + 3 * k + 2) (nv + e2) (nv + e0)) as J2. { left. by rewrite es_high, Hr by lia. }
  destruct j as [|[|[|[|j]]]]; simpl in Hp; [| | | |done]; injection Hp as <-.
  - left. split; [done|]. split; simpl; try lia; try by apply joins_sym. + eapply joins_sym, joins_half', H0. + eapply joins_half, H1.
  - right. left. split; [done|]. split; simpl; try lia; try by apply joins_sym. + eapply joins_sym, joins_half', H1. + eapply joins_half, H2.
  - do 2 right. left. split; [done|]. split; simpl; try lia; try by apply joins_sym. + eapply joins_sym, joins_half', H2. + eapply joins_half, H0.
  - do 3 right. split; [done|]. split; simpl; try lia; done.
Qed.
Lemma split_tri t' : t' ∈ ts' -> exists a b c, tri_at es' t' a b c.
Proof.
  intros Ht'. apply elem_of_list_lookup in Ht' as [m Hm]. destruct (ts_inv _ _ Hm) as (k & j & [[e0 e1] e2] & a & b & c & -> & Hj & Ht & HT & Hr & Hp).
  destruct (split_tri_at _ _ _ _ _ _ _ _ _ Ht HT Hr Hp) as [[_ H]|[[_ H]|[[_ H]|[_ H]]]]; by eauto.
Qed.

(** The edges of a part, by number *)
Lemma part_high t a b c k j t' x : tri_at es t a b c -> (parts (2 * ne + 3 * k) t a b c).2 !! j = Some t' -> x ∈ corners t' -> 2 * ne <= x ->
  j = 3 /\ 2 * ne + 3 * k <= x < 2 * ne + 3 * k + 3 \/ j < 3 /\ x = 2 * ne + 3 * k + j.
Proof.
  intros HT Hp Hx Hh. pose proof (tri_distinct _ _ _ _ HT) as HD. destruct t as [[e0 e1] e2]. simpl in *.
  destruct HD as (_ & _ & _ & L0 & L1 & L2). clear HT.
  pose proof (half_cases es e0 a L0). pose proof (half_cases es e0 b L0). pose proof (half_cases es e1 b L1). pose proof (half_cases es e1 c L1). pose proof (half_cases es e2 c L2). pose proof (half_cases es e2 a L2).
  destruct j as [|[|[|[|j]]]]; simpl in Hp; try done; injection Hp as <-; simpl in Hx; rewrite !elem_of_cons, elem_of_nil in Hx; destruct Hx as [->|[->|[->|[]]]]; lia.
Qed.
Lemma part_low t a b c k j t' x : tri_at es t a b c -> (parts (2 * ne + 3 * k) t a b c).2 !! j = Some t' -> x ∈ corners t' -> x < 2 * ne ->
  j = 0 /\ (x / 2 = t.1.1 \/ x / 2 = t.1.2) \/ j = 1 /\ (x / 2 = t.1.2 \/ x / 2 = t.2) \/ j = 2 /\ (x / 2 = t.2 \/ x / 2 = t.1.1).
Proof.
  intros HT Hp Hx Hh. pose proof (tri_distinct _ _ _ _ HT) as HD. destruct t as [[e0 e1] e2]. simpl in *.
  destruct HD as (_ & _ & _ & L0 & L1 & L2). clear HT.
  destruct j as [|[|[|[|j]]]]; simpl in Hp; try done; injection Hp as <-; simpl in Hx; rewrite !elem_of_cons, elem_of_nil in Hx; destruct Hx as [->|[->|[->|[]]]]; try lia; rewrite half_div by done; tauto.
Qed.
Lemma part_halves t a b c k j t' x y : tri_at es t a b c -> (parts (2 * ne + 3 * k) t a b c).2 !! j = Some t' -> x ∈ corners t' -> y ∈ corners t' -> x <> y -> x < 2 * ne -> y < 2 * ne -> x / 2 <> y / 2.
Proof.
  intros HT Hp Hx Hy. pose proof (tri_distinct _ _ _ _ HT) as HD. clear HT. destruct t as [[e0 e1] e2]. simpl in *.
  destruct HD as (? & ? & ? & L0 & L1 & L2).
  destruct j as [|[|[|[|j]]]]; simpl in Hp; try done; injection Hp as <-; simpl in Hx, Hy; rewrite !elem_of_cons, elem_of_nil in Hx, Hy; destruct Hx as [->|[->|[->|[]]]], Hy as [->|[->|[->|[]]]]; intros ? ? ?; try done; try lia; rewrite !half_div by done; done.
Qed.
Lemma split_share k k' t t' x y : ts' !! k = Some t -> ts' !! k' = Some t' -> x <> y -> x ∈ corners t -> y ∈ corners t -> x ∈ corners t' -> y ∈ corners t' -> k = k'.
Proof.
  intros Hk Hk' Hxy Hx Hy Hx' Hy'. destruct (ts_inv _ _ Hk) as (m & j & t0 & a & b & c & -> & Hj & Ht & HT & Hr & Hp). destruct (ts_inv _ _ Hk') as (m' & j' & t0' & a' & b' & c' & -> & Hj' & Ht' & HT' & Hr' & Hp').
  destruct (decide (x < 2 * ne)) as [Lx|Lx], (decide (y < 2 * ne)) as [Ly|Ly].
  - pose proof (part_low _ _ _ _ _ _ _ _ HT Hp Hx Lx) as Px. pose proof (part_low _ _ _ _ _ _ _ _ HT Hp Hy Ly) as Py. pose proof (part_low _ _ _ _ _ _ _ _ HT' Hp' Hx' Lx) as Px'. pose proof (part_low _ _ _ _ _ _ _ _ HT' Hp' Hy' Ly) as Py'.
    pose proof (part_halves _ _ _ _ _ _ _ _ _ HT Hp Hx Hy Hxy Lx Ly) as Hd. pose proof (tri_distinct _ _ _ _ HT) as HD. clear HT HT' Hp Hp' Hr Hr' Hk Hk' Hx Hy Hx' Hy' Hj Hj'.
    destruct t0 as [[e0 e1] e2], t0' as [[e0' e1'] e2']. simpl in *.
    assert (m = m') as <-. { apply (v_share _ _ _ HI m m' _ _ (x / 2) (y / 2) Ht Ht'); simpl; rewrite ?elem_of_cons; [done|clear -Px; tauto|clear -Py; tauto|clear -Px'; tauto|clear -Py'; tauto]. }
    rewrite Ht in Ht'. injection Ht' as <- <- <-. f_equal. generalize dependent (x / 2). generalize dependent (y / 2). intros y2 Py Py' x2 Px Px' Hd. clear Hxy Lx Ly Ht HI. destruct HD as (D1 & D2 & D3 & _).
    destruct Px as [[-> [-> | ->]]|[[-> [-> | ->]]|[-> [-> | ->]]]]; (destruct Py as [[? [-> | ->]]|[[? [-> | ->]]|[? [-> | ->]]]]; try congruence); (destruct Px' as [[-> [? | ?]]|[[-> [? | ?]]|[-> [? | ?]]]]; try congruence); (destruct Py' as [[? [? | ?]]|[[? [? | ?]]|[? [? | ?]]]]; congruence).
  - pose proof (part_low _ _ _ _ _ _ _ _ HT Hp Hx Lx) as Px. pose proof (part_low _ _ _ _ _ _ _ _ HT' Hp' Hx' Lx) as Px'. pose proof (part_high _ _ _ _ _ _ _ _ HT Hp Hy ltac:(lia)) as Py. pose proof (part_high _ _ _ _ _ _ _ _ HT' Hp' Hy' ltac:(lia)) as Py'.
    assert (j < 3) by (clear -Px; lia). assert (j' < 3) by (clear -Px'; lia). clear -Py Py' H H0. lia.
  - pose proof (part_low _ _ _ _ _ _ _ _ HT Hp Hy Ly) as Px. pose proof (part_low _ _ _ _ _ _ _ _ HT' Hp' Hy' Ly) as Px'. pose proof (part_high _ _ _ _ _ _ _ _ HT Hp Hx ltac:(lia)) as Py. pose proof (part_high _ _ _ _ _ _ _ _ HT' Hp' Hx' ltac:(lia)) as Py'.
    assert (j < 3) by (clear -Px; lia). assert (j' < 3) by (clear -Px'; lia). clear -Py Py' H H0. lia.
  - pose proof (part_high _ _ _ _ _ _ _ _ HT Hp Hx ltac:(lia)) as Px. pose proof (part_high _ _ _ _ _ _ _ _ HT' Hp' Hx' ltac:(lia)) as Px'. pose proof (part_high _ _ _ _ _ _ _ _ HT Hp Hy ltac:(lia)) as Py. pose proof (part_high _ _ _ _ _ _ _ _ HT' Hp' Hy' ltac:(lia)) as Py'.
    clear -Px Px' Py Py' Hxy Hj Hj'. lia.
Qed.
Lemma split_used v : v < nv + ne -> exists i w, joins es' i v w.
Proof.
  intros Hv. destruct (decide (v < nv)) as [Hlt|Hge].
  - destruct (v_used _ _ _ HI v Hlt) as (i & w & Hj). exists (half es i v), (nv + i). by eapply joins_half.
  - destruct (lookup_lt_is_Some_2 es (v - nv)) as [[x y] Hx]; [lia|]. exists (half es (v - nv) x), x. apply joins_sym. replace v with (nv + (v - nv)) at 2 by lia. apply (joins_half _ x y). by left.
Qed.

(** How many triangles an edge has *)
Lemma mult_app l l' e : mult (l ++ l') e = mult l e + mult l' e.
Proof. unfold mult. rewrite map_app. by rewrite sum_list_with_app || induction l; simpl; lia. Qed.
Lemma mult_concat ls e : mult (concat ls) e = sum_list (map (fun l => mult l e) ls).
Proof. induction ls as [|l ls IH]; [done|]. simpl. rewrite mult_app, IH. done. Qed.
Lemma sum_single (l : list nat) k x : l !! k = Some x -> (forall i y, i <> k -> l !! i = Some y -> y = 0) -> sum_list l = x.
Proof.
  revert k. induction l as [|y l IH]; intros [|k] Hk Hz; try done; simpl.
  - injection Hk as ->. assert (forall (l : list nat), (forall i y, l !! i = Some y -> y = 0) -> sum_list l = 0) as Hs.
    { clear. induction l as [|y l IH]; intros H; [done|]. simpl. rewrite (H 0 y eq_refl), IH; [done|]. intros i z Hi. by apply (H (S i)). }
    rewrite Hs; [lia|]. intros i z Hi. by apply (Hz (S i)).
  - rewrite (Hz 0 y ltac:(lia) eq_refl). apply (IH k Hk). intros i z Hi Hz'. apply (Hz (S i)); [lia|done].
Qed.
Definition ind (x y : nat) : nat := if Nat.eq_dec x y then 1 else 0.
Lemma count_ind l e : count_occ Nat.eq_dec l e = sum_list (map (fun x => ind x e) l).
Proof. unfold ind. induction l as [|x l IH]; [done|]. simpl. destruct (Nat.eq_dec x e); lia. Qed.
Lemma ind_half e a b h : joins es e a b -> a <> b -> ind (half es e a) h + ind (half es e b) h = ind e (h / 2).
Proof.
  intros Hj Hn. pose proof (half_inj _ _ _ _ Hj Hn). pose proof (half_cases es e a (joins_lt _ _ _ _ Hj)). pose proof (half_cases es e b (joins_lt _ _ _ _ Hj)). unfold ind.
  destruct (Nat.eq_dec (half es e a) h), (Nat.eq_dec (half es e b) h), (Nat.eq_dec e (h / 2)); lia.
Qed.
Lemma ind_no x h : x <> h -> ind x h = 0.
Proof. unfold ind. by destruct (Nat.eq_dec x h). Qed.
Lemma part_mult_half t a b c off h : tri_at es t a b c -> 2 * ne <= off -> h < 2 * ne -> mult (parts off t a b c).2 h = count_occ Nat.eq_dec (corners t) (h / 2).
Proof.
  intros HT Ho Hh. rewrite (count_ind (corners t)). pose proof (tri_distinct _ _ _ _ HT) as HD. destruct t as [[e0 e1] e2]. destruct HT as [H0 H1 H2 N1 N2 N3]. simpl in *. destruct HD as (? & ? & ? & L0 & L1 & L2).
  unfold mult. cbn [parts snd map sum_list]. rewrite !count_ind. cbn [corners map sum_list foldr]. simpl.
  pose proof (ind_half _ _ _ h H0 N1). pose proof (ind_half _ _ _ h H1 N2). pose proof (ind_half _ _ _ h H2 N3). rewrite (ind_no off), (ind_no (off + 1)), (ind_no (off + 2)) by lia. lia.
Qed.
Lemma part_mult_inner t a b c off h : tri_at es t a b c -> 2 * ne <= off -> 2 * ne <= h -> mult (parts off t a b c).2 h = if (off <=? h) && (h <? off + 3) then 2 else 0.
Proof.
  intros HT Ho Hh. pose proof (tri_distinct _ _ _ _ HT) as HD. destruct t as [[e0 e1] e2]. simpl in *. destruct HD as (? & ? & ? & L0 & L1 & L2). clear HT.
  assert (forall e b, e < ne -> ind (half es e b) h = 0) as Hz by (intros e b' He; apply ind_no; pose proof (half_cases es e b' He); lia).
  unfold mult. cbn [parts snd map sum_list]. rewrite !count_ind. simpl. rewrite !Hz by done. clear Hz. unfold ind. destruct (Nat.leb_spec off h), (Nat.ltb_spec h (off + 3)); simpl; destruct (Nat.eq_dec off h), (Nat.eq_dec (off + 1) h), (Nat.eq_dec (off + 2) h); lia.
Qed.
Lemma split_mult h : h < 2 * ne + 3 * length ts -> mult ts' h = if h <? 2 * ne then mult ts (h / 2) else 2.
Proof.
  intros Hh. rewrite mult_concat, map_map. destruct HP as [HL HQ]. destruct (Nat.ltb_spec h (2 * ne)) as [Hlt|Hge].
  - change (mult ts (h / 2)) with (sum_list (map (fun t => count_occ Nat.eq_dec (corners t) (h / 2)) ts)). f_equal. apply list_eq_same_length with (n := length ts); [by rewrite map_length|by rewrite map_length|]. intros k x y Hk Hx Hy.
    rewrite list_lookup_fmap in Hx. apply fmap_Some in Hx as (r & Hr & ->). rewrite list_lookup_fmap in Hy. apply fmap_Some in Hy as (t & Ht & ->). destruct (rs_lookup _ _ Hr) as (t' & a & b & c & Ht' & HT & ->). rewrite Ht in Ht'. injection Ht' as <-.
    apply part_mult_half; [done|lia|done].
  - destruct (lookup_lt_is_Some_2 rs ((h - 2 * ne) / 3)) as [r Hr]; [lia|]. apply sum_single with ((h - 2 * ne) / 3).
    + rewrite list_lookup_fmap, Hr. simpl. f_equal. destruct (rs_lookup _ _ Hr) as (t & a & b & c & Ht & HT & ->). rewrite part_mult_inner by (try done; lia).
      destruct (Nat.leb_spec (2 * ne + 3 * ((h - 2 * ne) / 3)) h), (Nat.ltb_spec h (2 * ne + 3 * ((h - 2 * ne) / 3) + 3)); simpl; lia.
    + intros i y Hi Hy. rewrite list_lookup_fmap in Hy. apply fmap_Some in Hy as (r' & Hr' & ->). destruct (rs_lookup _ _ Hr') as (t & a & b & c & Ht & HT & ->). rewrite part_mult_inner by (try done; lia).
      destruct (Nat.leb_spec (2 * ne + 3 * i) h), (Nat.ltb_spec h (2 * ne + 3 * i + 3)); simpl; lia.
Qed.

Lemma split_inv : Inv (nv + ne) es' ts'.
Proof.
  constructor; [exact split_edge|exact split_uniq|exact split_tri|exact split_share| |exact split_used].
  intros e He. rewrite es_length in He. rewrite split_mult by done. destruct (Nat.ltb_spec e (2 * ne)); [|lia]. apply (v_mult _ _ _ HI). lia.
Qed.
Lemma split_closed : InvClosed es ts -> InvClosed es' ts'.
Proof.
  intros HC e He. rewrite es_length in He. rewrite split_mult by done. destruct (Nat.ltb_spec e (2 * ne)); [|done]. apply HC. lia.
Qed.

(** All parts of a triangle are connected, and so are parts of triangles that meet *)
Lemma part_middle k j : k < length ts -> j < 4 -> rtc (Meet ts') (4 * k + j) (4 * k + 3) /\ rtc (Meet ts') (4 * k + 3) (4 * k + j).
Proof.
  intros Hk Hj. destruct (lookup_lt_is_Some_2 ts k Hk) as [t Ht]. destruct HP as [_ HQ]. destruct (HQ k t Ht) as (a & b & c & HT & Hr). destruct (decide (j = 3)) as [->|Hn]; [done|].
  destruct t as [[e0 e1] e2]. assert (Meet ts' (4 * k + j) (4 * k + 3)) as HM.
  { unfold Meet. rewrite !ts_lookup, Hr by lia. destruct j as [|[|[|j]]]; [| | |lia]; simpl; do 2 eexists; [exists (2 * ne + 3 * k)|exists (2 * ne + 3 * k + 1)|exists (2 * ne + 3 * k + 2)]; (split; [done|]); (split; [done|]); simpl; rewrite !elem_of_cons; tauto. }
  split; apply rtc_once; [done|]. destruct HM as (x & y & e & ? & ? & ? & ?). by exists y, x, e.
Qed.
Lemma part_corner k t e u v : ts !! k = Some t -> e ∈ corners t -> joins es e u v -> exists j t', j < 4 /\ ts' !! (4 * k + j) = Some t' /\ half es e u ∈ corners t'.
Proof.
  intros Ht He Hj. destruct HP as [_ HQ]. destruct (HQ k t Ht) as (a & b & c & HT & Hr). destruct t as [[e0 e1] e2]. destruct HT as [H0 H1 H2 _ _ _]. simpl in *. rewrite !elem_of_cons, elem_of_nil in He.
  assert (forall j t', j < 4 -> (parts (2 * ne + 3 * k) (e0, e1, e2) a b c).2 !! j = Some t' -> half es e u ∈ corners t' -> exists j t', j < 4 /\ ts' !! (4 * k + j) = Some t' /\ half es e u ∈ corners t') as Hg.
  { intros j t' Hj4 Hp Hin. exists j, t'. split; [done|]. split; [|done]. by rewrite ts_lookup, Hr by done. }
  destruct He as [->|[->|[->|[]]]]; [destruct (joins_eq _ _ _ _ _ _ Hj H0) as [[-> ->]|[-> ->]]|destruct (joins_eq _ _ _ _ _ _ Hj H1) as [[-> ->]|[-> ->]]|destruct (joins_eq _ _ _ _ _ _ Hj H2) as [[-> ->]|[-> ->]]].
  - eapply (Hg 2); [lia|done|]. simpl. rewrite !elem_of_cons. tauto.
  - eapply (Hg 0); [lia|done|]. simpl. rewrite !elem_of_cons. tauto.
  - eapply (Hg 0); [lia|done|]. simpl. rewrite !elem_of_cons. tauto.
  - eapply (Hg 1); [lia|done|]. simpl. rewrite !elem_of_cons. tauto.
  - eapply (Hg 1); [lia|done|]. simpl. rewrite !elem_of_cons. tauto.
  - eapply (Hg 2); [lia|done|]. simpl. rewrite !elem_of_cons. tauto.
Qed.
Lemma split_connected : InvConnected ts -> InvConnected ts'.
Proof.
  intros HC i j Hi Hj. rewrite ts_length in Hi, Hj. assert (forall k k', rtc (Meet ts) k k' -> rtc (Meet ts') (4 * k + 3) (4 * k' + 3)) as Hg.
  { induction 1 as [|k k1 k' (t & t' & e & Ht & Ht' & He & He') _ IH]; [done|]. etransitivity; [|exact IH].
    destruct (v_tri _ _ _ HI t ltac:(by eapply elem_of_list_lookup_2)) as (a & b & c & HT). assert (exists u v, joins es e u v) as (u & v & Huv).
    { destruct t as [[e0 e1] e2]. destruct HT as [H0 H1 H2 _ _ _]. simpl in *. rewrite !elem_of_cons, elem_of_nil in He. destruct He as [->|[->|[->|[]]]]; by eauto. }
    destruct (part_corner _ _ _ _ _ Ht He Huv) as (j0 & t0 & L0 & E0 & I0). destruct (part_corner _ _ _ _ _ Ht' He' Huv) as (j1 & t1 & L1 & E1 & I1).
    etransitivity; [apply (part_middle k j0); [by eapply lookup_lt_Some|done]|]. apply rtc_l with (4 * k1 + j1); [by exists t0, t1, (half es e u)|]. apply (part_middle k1 j1); [by eapply lookup_lt_Some|done]. }
  replace i with (4 * (i / 4) + i mod 4) by lia. replace j with (4 * (j / 4) + j mod 4) by lia.
  etransitivity; [apply (part_middle (i / 4) (i mod 4)); lia|]. etransitivity; [|apply (part_middle (j / 4) (j mod 4)); lia]. apply Hg, HC; lia.
Qed.
End Split.

Section Mesh.
Context {P : Type} (mid : P -> P -> P).
Lemma new_vertices_ok nv es ts (vs : list P) : Inv nv es ts -> length vs = nv -> exists ms, new_vertices mid vs es = Some ms /\ length ms = length es /\
  forall e u v, joins es e u v -> exists x y, vs !! u = Some x /\ vs !! v = Some y /\ (ms !! e = Some (mid x y) \/ ms !! e = Some (mid y x)).
Proof.
  intros HI HL. destruct (mapM (fun e : edge => x ← vs !! e.1; y ← vs !! e.2; Some (mid x y)) es) as [ms|] eqn:E.
  - exists ms. split; [done|]. apply mapM_Some in E. split; [symmetry; by eapply Forall2_length|]. intros e u v Hj. destruct (v_edge _ _ _ HI _ _ _ Hj) as [_ Hu]. destruct (v_edge _ _ _ HI _ _ _ (joins_sym _ _ _ _ Hj)) as [_ Hv].
    destruct (lookup_lt_is_Some_2 vs u) as [x Hx]; [lia|]. destruct (lookup_lt_is_Some_2 vs v) as [y Hy]; [lia|]. exists x, y. split; [done|]. split; [done|].
    destruct Hj as [Hj|Hj]; destruct (Forall2_lookup_l _ _ _ _ _ E Hj) as (m & Hm & Em); simpl in Em; rewrite ?Hx, ?Hy in Em; simpl in Em; rewrite ?Hx, ?Hy in Em; simpl in Em; injection Em as <-; tauto.
  - exfalso. apply eq_None_not_Some in E. apply E. apply mapM_is_Some_2. apply Forall_forall. intros [u v] He. apply elem_of_list_lookup in He as [i Hi].
    destruct (v_edge _ _ _ HI i u v (or_introl Hi)) as [_ Hu]. destruct (v_edge _ _ _ HI i v u (or_intror Hi)) as [_ Hv].
    destruct (lookup_lt_is_Some_2 vs u) as [x Hx]; [lia|]. destruct (lookup_lt_is_Some_2 vs v) as [y Hy]; [lia|]. simpl. rewrite Hx. simpl. rewrite Hy. by eexists.
Qed.
Definition MInv (m : mesh P) : Prop := Inv (length (m_vertices m)) (m_edges m) (m_triangles m).
Lemma subdivide_ok m : MInv m -> exists m', subdivide mid m = Some m' /\ MInv m' /\
  length (m_vertices m') = length (m_vertices m) + length (m_edges m) /\ length (m_edges m') = 2 * length (m_edges m) + 3 * length (m_triangles m) /\ length (m_triangles m') = 4 * length (m_triangles m) /\
  (InvClosed (m_edges m) (m_triangles m) -> InvClosed (m_edges m') (m_triangles m')) /\ (InvConnected (m_triangles m) -> InvConnected (m_triangles m')).
Proof.
  intros HI. destruct (new_vertices_ok _ _ _ _ HI eq_refl) as (ms & E & L & _). destruct (split_ok _ _ _ HI) as (rs & Er & HP). unfold subdivide. rewrite E. simpl. rewrite Er. simpl. eexists. split; [reflexivity|].
  unfold MInv. simpl. rewrite app_length, L. split; [by eapply split_inv|]. split; [done|]. split; [by eapply es_length|]. split; [by eapply ts_length|]. split; [intros; by eapply split_closed|intros; by eapply split_connected].
Qed.
End Mesh.
