(** Proofs about the verifier of DBSCAN clusterings. *)
From Verif Require Import VerifyModel VerifySpec.
Local Open Scope nat_scope.

(** ** Rows of the array *)
Definition Rows (offset : list nat) (n : nat) (nb : list entry) (rs : list (list entry)) : Prop :=
  length offset = S n /\ length rs = n /\
  forall i r, rs !! i = Some r -> exists o, offset !! i = Some o /\ offset !! S i = Some (o + length r) /\ forall k e, r !! k = Some e -> nb !! (o + k) = Some e.

Lemma mapM_seq {A} (nb : list A) (r : list A) : forall o, (forall k e, r !! k = Some e -> nb !! (o + k) = Some e) -> mapM (fun j => nb !! j) (seq o (length r)) = Some r.
Proof.
  induction r as [|a r IH]; intros o H; [done|]. simpl. pose proof (H 0 a eq_refl) as E. rewrite Nat.add_0_r in E. rewrite E. simpl.
  rewrite (IH (S o)); [done|]. intros k e Hk. replace (S o + k) with (o + S k) by lia. by apply H.
Qed.
Lemma mapM_total {A B} (f : A -> option B) (g : A -> B) l : (forall x, x ∈ l -> f x = Some (g x)) -> mapM f l = Some (map g l).
Proof.
  induction l as [|a l IH]; intros H; [done|]. simpl. rewrite (H a) by (by left). simpl. rewrite IH; [done|]. intros x Hx. apply H. by right.
Qed.

Section Rows.
Variables (offset : list nat) (n : nat).
Lemma rows_lt nb rs i : Rows offset n nb rs -> i < n -> exists r, rs !! i = Some r.
Proof. intros (_ & HL & _) Hi. apply lookup_lt_is_Some_2. lia. Qed.
Lemma rows_number_n nb rs : Rows offset n nb rs -> rows_number offset = n.
Proof. intros (HL & _). unfold rows_number. lia. Qed.
Lemma rows_self nb rs i e r : Rows offset n nb rs -> rs !! i = Some (e :: r) -> self offset nb i = Some e.
Proof. intros (_ & _ & H) Hi. destruct (H i _ Hi) as (o & Ho & _ & He). unfold self. rewrite Ho. simpl. specialize (He 0 e eq_refl). by rewrite Nat.add_0_r in He. Qed.
Lemma rows_row nb rs i r k : Rows offset n nb rs -> rs !! i = Some r -> row offset k nb i = Some (drop k r).
Proof.
  intros (_ & _ & H) Hi. destruct (H i _ Hi) as (o & Ho & Ho' & He). unfold row. rewrite Ho, Ho'. simpl.
  replace (o + length r - (o + k)) with (length (drop k r)) by (rewrite drop_length; lia). apply mapM_seq. intros j e Hj. rewrite lookup_drop in Hj. rewrite <- Nat.add_assoc. by apply He.
Qed.
Lemma rows_mono nb rs : Rows offset n nb rs -> forall j i r o o', rs !! i = Some r -> offset !! i = Some o -> i < j -> offset !! j = Some o' -> o + length r <= o'.
Proof.
  intros (HL & HR & H). induction j as [|j IH]; intros i r o o' Hi Ho Hlt Ho'; [lia|]. destruct (decide (i = j)) as [->|Hne].
  - destruct (H j r Hi) as (o1 & E1 & E2 & _). rewrite E1 in Ho. injection Ho as <-. rewrite E2 in Ho'. by injection Ho' as <-.
  - pose proof (lookup_lt_Some _ _ _ Ho'). destruct (lookup_lt_is_Some_2 rs j) as [rj Hj]; [lia|]. destruct (H j rj Hj) as (o1 & E1 & E2 & _).
    pose proof (IH i r o o1 Hi Ho ltac:(lia) E1). rewrite E2 in Ho'. injection Ho' as <-. lia.
Qed.
Lemma rows_write nb rs i r o k e : Rows offset n nb rs -> rs !! i = Some r -> offset !! i = Some o -> k < length r ->
  o + k < length nb /\ Rows offset n (<[o + k := e]> nb) (<[i := <[k := e]> r]> rs).
Proof.
  intros HR Hi Ho Hk. pose proof HR as (HL & HLr & H). destruct (H i r Hi) as (o1 & E1 & E2 & E3). rewrite E1 in Ho. injection Ho as ->.
  assert (o + k < length nb) as Hb by (destruct (lookup_lt_is_Some_2 r k Hk) as [e0 He0]; exact (lookup_lt_Some _ _ _ (E3 k e0 He0))).
  split; [done|]. split; [done|]. split; [by rewrite insert_length|]. intros j rj Hj. destruct (decide (i = j)) as [<-|Hne].
  - rewrite list_lookup_insert in Hj by (by apply lookup_lt_Some in Hi). injection Hj as <-. exists o. rewrite insert_length. split; [done|]. split; [done|]. intros k' e' Hk'.
    destruct (decide (k = k')) as [<-|Hne]; [rewrite list_lookup_insert in Hk' by done; injection Hk' as <-; by rewrite list_lookup_insert|].
    rewrite list_lookup_insert_ne in Hk' by done. rewrite list_lookup_insert_ne by lia. by apply E3.
  - rewrite list_lookup_insert_ne in Hj by done. destruct (H j rj Hj) as (oj & F1 & F2 & F3). exists oj. split; [done|]. split; [done|]. intros k' e' Hk'. pose proof (lookup_lt_Some _ _ _ Hk').
    rewrite list_lookup_insert_ne; [by apply F3|]. destruct (decide (i < j)).
    + pose proof (rows_mono nb rs HR j i r o oj Hi E1 ltac:(lia) F1). lia.
    + pose proof (rows_mono nb rs HR i j rj oj o Hj F1 ltac:(lia) E1). lia.
Qed.
Lemma none_incorrect_ok nb rs f (g : nat -> nat) : Rows offset n nb rs -> (forall i, i < n -> f i = Some (g i)) ->
  exists b, none_incorrect offset f = Some b /\ (b = true <-> forall i, i < n -> g i = 0).
Proof.
  intros HR H. unfold none_incorrect. rewrite (rows_number_n nb rs HR). rewrite (mapM_total f g) by (intros x Hx; apply elem_of_seq in Hx; apply H; lia). simpl. eexists. split; [done|].
  rewrite Nat.eqb_eq. assert (forall l, sum_list (map g l) = 0 <-> forall i, i ∈ l -> g i = 0) as E.
  { clear. induction l as [|a l IH]; simpl; [split; [intros _ i Hi; by apply elem_of_nil in Hi|done]|]. split.
    - intros Hs i Hi. apply elem_of_cons in Hi as [->|Hi]; [lia|]. apply IH; [lia|done].
    - intros Hi. rewrite (Hi a) by (by left). apply IH. intros i Hi'. apply Hi. by right. }
  rewrite E. split; intros Hi i Hin; apply Hi; [apply elem_of_seq; lia|]. apply elem_of_seq in Hin. lia.
Qed.
End Rows.

(** ** Rows by keys: rank and index *)
Section Keys.
Variables (offset : list nat) (n rank : nat) (lab : nat * nat -> Z) (core : nat * nat -> bool).
Definition E (q : nat * nat) : entry := Entry q.2 q.1 (lab q) (core q).
(** Every row starts with the point itself. *)
Definition Sorted (nb : list entry) (t : nat -> list (nat * nat)) : Prop := exists rs, Rows offset n nb rs /\ forall i, i < n -> rs !! i = Some (E (rank, i) :: map E (t i)).

Lemma sorted_self nb t i : Sorted nb t -> i < n -> self offset nb i = Some (E (rank, i)).
Proof. intros (rs & HR & H) Hi. exact (rows_self offset n nb rs i _ _ HR (H i Hi)). Qed.
Lemma sorted_row nb t i : Sorted nb t -> i < n -> row offset 1 nb i = Some (map E (t i)).
Proof. intros (rs & HR & H) Hi. exact (rows_row offset n nb rs i _ 1 HR (H i Hi)). Qed.

Lemma core_nonnegative_ok nb t : Sorted nb t -> exists b, core_nonnegative offset nb = Some b /\ (b = true <-> forall i, i < n -> core (rank, i) = true -> (0 <= lab (rank, i))%Z).
Proof.
  intros HS. pose proof HS as (rs & HR & _).
  destruct (none_incorrect_ok offset n nb rs (fun i => s ← self offset nb i; Some (if e_core s && (e_label s <? 0)%Z then 1 else 0)) (fun i => if core (rank, i) && (lab (rank, i) <? 0)%Z then 1 else 0) HR) as (b & Hb & Hi).
  { intros i Hi. by rewrite (sorted_self nb t i HS Hi). }
  exists b. split; [done|]. rewrite Hi. split; intros H i Hlt; specialize (H i Hlt); destruct (core (rank, i)); simpl in *; destruct (Z.ltb_spec (lab (rank, i)) 0); try done; try lia; intros; lia.
Qed.
Lemma connected_share_ok nb t : Sorted nb t -> exists b, connected_share offset nb = Some b /\
  (b = true <-> forall i q, i < n -> core (rank, i) = true -> q ∈ t i -> core q = true -> lab (rank, i) = lab q).
Proof.
  intros HS. pose proof HS as (rs & HR & _). unfold connected_share.
  match goal with |- exists b, none_incorrect _ ?f = _ /\ _ => edestruct (none_incorrect_ok offset n nb rs f) as (b & Hb & Hi) end; [exact HR| |exists b; split; [exact Hb|]].
  { intros i Hi. rewrite (sorted_self nb t i HS Hi). simpl. rewrite (sorted_row nb t i HS Hi). simpl.
    instantiate (1 := fun i => if core (rank, i) then length (List.filter (fun e => e_core e && negb (lab (rank, i) =? e_label e)%Z) (map E (t i))) else 0). cbn beta. by destruct (core (rank, i)). }
  rewrite Hi. split.
  - intros H i q Hlt Hc Hq Hcq. specialize (H i Hlt). rewrite Hc in H. apply nil_length_inv in H. destruct (Z.eqb_spec (lab (rank, i)) (lab q)) as [|Hne]; [done|]. exfalso.
    assert (In (E q) (List.filter (fun e => e_core e && negb (lab (rank, i) =? e_label e)%Z) (map E (t i)))) as Hin; [|by rewrite H in Hin].
    apply filter_In. split; [apply in_map; by apply elem_of_list_In|]. simpl. rewrite Hcq. simpl. by apply negb_true_iff, Z.eqb_neq.
  - intros H i Hlt. destruct (core (rank, i)) eqn:Hc; [|done]. destruct (List.filter _ _) as [|e l] eqn:Ef; [done|]. exfalso.
    assert (In e (List.filter (fun e => e_core e && negb (lab (rank, i) =? e_label e)%Z) (map E (t i)))) as Hin by (rewrite Ef; by left).
    apply filter_In in Hin as [Hin Hf]. apply in_map_iff in Hin as (q & <- & Hq). simpl in Hf. apply andb_true_iff in Hf as [Hcq Hf]. apply negb_true_iff, Z.eqb_neq in Hf. apply Hf. apply (H i q); try done. by apply elem_of_list_In.
Qed.
Lemma existsb_core (l : list (nat * nat)) : existsb e_core (map E l) = true <-> exists q, q ∈ l /\ core q = true.
Proof.
  rewrite existsb_exists. split.
  - intros (e & He & Hc). apply in_map_iff in He as (q & <- & Hq). exists q. split; [by apply elem_of_list_In|done].
  - intros (q & Hq & Hc). exists (E q). split; [apply in_map; by apply elem_of_list_In|done].
Qed.
Lemma noise_points_ok nb t : Sorted nb t -> exists b, noise_points offset nb = Some b /\
  (b = true <-> forall i, i < n -> core (rank, i) = false -> (exists q, q ∈ t i /\ core q = true) \/ lab (rank, i) = (-1)%Z).
Proof.
  intros HS. pose proof HS as (rs & HR & _). unfold noise_points.
  match goal with |- exists b, none_incorrect _ ?f = _ /\ _ => edestruct (none_incorrect_ok offset n nb rs f) as (b & Hb & Hi) end; [exact HR| |exists b; split; [exact Hb|]].
  { intros i Hi. rewrite (sorted_self nb t i HS Hi). simpl. rewrite (sorted_row nb t i HS Hi). simpl.
    instantiate (1 := fun i => if core (rank, i) then 0 else if existsb e_core (map E (t i)) then 0 else if negb (lab (rank, i) =? -1)%Z then 1 else 0). cbn beta. by destruct (core (rank, i)). }
  rewrite Hi. split.
  - intros H i Hlt Hc. specialize (H i Hlt). rewrite Hc in H. destruct (existsb e_core (map E (t i))) eqn:Ex; [left; by apply existsb_core|]. right. by destruct (Z.eqb_spec (lab (rank, i)) (-1)).
  - intros H i Hlt. destruct (core (rank, i)) eqn:Hc; [done|]. destruct (H i Hlt Hc) as [Hq| ->]; [by apply existsb_core in Hq as ->|]. by destruct (existsb e_core _).
Qed.
Lemma border_scan_ok label l : forall bd, border_scan label (map E l) bd = (bd || existsb e_core (map E l), existsb (fun q => core q && (label =? lab q)%Z) l).
Proof.
  induction l as [|q l IH]; intros bd; simpl; [by rewrite orb_false_r|]. destruct (core q) eqn:Hc; simpl.
  - destruct (Z.eqb_spec label (lab q)); simpl; [by rewrite orb_true_r|]. rewrite IH. by rewrite orb_true_r.
  - by rewrite IH.
Qed.
Lemma border_points_ok nb t : Sorted nb t -> exists b, border_points offset nb = Some b /\
  (b = true <-> forall i, i < n -> core (rank, i) = false -> (exists q, q ∈ t i /\ core q = true) -> exists q, q ∈ t i /\ core q = true /\ lab (rank, i) = lab q).
Proof.
  intros HS. pose proof HS as (rs & HR & _). unfold border_points.
  match goal with |- exists b, none_incorrect _ ?f = _ /\ _ => edestruct (none_incorrect_ok offset n nb rs f) as (b & Hb & Hi) end; [exact HR| |exists b; split; [exact Hb|]].
  { intros i Hi. rewrite (sorted_self nb t i HS Hi). simpl. rewrite (sorted_row nb t i HS Hi). simpl. rewrite border_scan_ok.
    instantiate (1 := fun i => if core (rank, i) then 0 else if existsb e_core (map E (t i)) && negb (existsb (fun q => core q && (lab (rank, i) =? lab q)%Z) (t i)) then 1 else 0). cbn beta. by destruct (core (rank, i)). }
  rewrite Hi. split.
  - intros H i Hlt Hc Hq. specialize (H i Hlt). rewrite Hc in H. apply existsb_core in Hq as Hq'. rewrite Hq' in H. simpl in H. destruct (existsb (fun q => core q && (lab (rank, i) =? lab q)%Z) (t i)) eqn:Ex; [|done].
    apply existsb_exists in Ex as (q & Hin & Hq2). apply andb_true_iff in Hq2 as [Hcq Heq]. apply Z.eqb_eq in Heq. exists q. split; [by apply elem_of_list_In|done].
  - intros H i Hlt. destruct (core (rank, i)) eqn:Hc; [done|]. destruct (existsb e_core (map E (t i))) eqn:Ex; [|done]. apply existsb_core in Ex. destruct (H i Hlt Hc Ex) as (q & Hin & Hcq & Heq).
    assert (existsb (fun q => core q && (lab (rank, i) =? lab q)%Z) (t i) = true) as ->; [|done]. apply existsb_exists. exists q. split; [by apply elem_of_list_In|]. rewrite Hcq. simpl. by apply Z.eqb_eq.
Qed.
Lemma ignored_border_ok nb t : Sorted nb t -> exists b, ignored_border offset nb = Some b /\
  (b = true <-> forall i, i < n -> core (rank, i) = false -> (exists q, q ∈ t i /\ core q = true) -> lab (rank, i) = (-1)%Z).
Proof.
  intros HS. pose proof HS as (rs & HR & _). unfold ignored_border.
  match goal with |- exists b, none_incorrect _ ?f = _ /\ _ => edestruct (none_incorrect_ok offset n nb rs f) as (b & Hb & Hi) end; [exact HR| |exists b; split; [exact Hb|]].
  { intros i Hi. rewrite (sorted_self nb t i HS Hi). simpl. rewrite (sorted_row nb t i HS Hi). simpl.
    instantiate (1 := fun i => if core (rank, i) then 0 else if existsb e_core (map E (t i)) && negb (lab (rank, i) =? -1)%Z then 1 else 0). cbn beta. by destruct (core (rank, i)). }
  rewrite Hi. split.
  - intros H i Hlt Hc Hq. specialize (H i Hlt). rewrite Hc in H. apply existsb_core in Hq. rewrite Hq in H. simpl in H. by destruct (Z.eqb_spec (lab (rank, i)) (-1)).
  - intros H i Hlt. destruct (core (rank, i)) eqn:Hc; [done|]. destruct (existsb e_core (map E (t i))) eqn:Ex; [|done]. apply existsb_core in Ex. rewrite (H i Hlt Hc Ex). done.
Qed.

(** Placing the point itself first *)
Lemma place_self_ok nb rs i ks : Rows offset n nb rs -> rs !! i = Some (map E ks) -> (rank, i) ∈ ks ->
  exists nb' t, place_self offset i rank nb = Some nb' /\ length nb' = length nb /\ (rank, i) :: t ≡ₚ ks /\ Rows offset n nb' (<[i := E (rank, i) :: map E t]> rs).
Proof.
  intros HR Hi Hin. pose proof HR as (HL & HLr & H). destruct (H i _ Hi) as (o & Ho & Ho' & He). unfold place_self. rewrite Ho. simpl. rewrite (rows_row offset n nb rs i _ 0 HR Hi). rewrite drop_0. simpl.
  set (P := fun (acc : option nat) '(k, e) => if (e_index e =? i) && (e_rank e =? rank) then Some (o + k) else acc).
  assert (forall ks0 d acc, (exists k, foldl P acc (imap (fun k e => (d + k, e)) (map E ks0)) = Some (o + (d + k)) /\ ks0 !! k = Some (rank, i)) \/
     (foldl P acc (imap (fun k e => (d + k, e)) (map E ks0)) = acc /\ ~ (rank, i) ∈ ks0)) as Hf.
  { induction ks0 as [|q ks0 IH]; intros d acc; [right; split; [done|apply not_elem_of_nil]|]. simpl.
    assert (imap ((fun k e => (d + k, e)) ∘ S) (map E ks0) = imap (fun k e => (S d + k, e)) (map E ks0)) as -> by (apply imap_ext; intros; simpl; f_equal; lia).
    destruct (IH (S d) (if (q.2 =? i) && (q.1 =? rank) then Some (o + (d + 0)) else acc)) as [(k & E1 & E2)|[E1 E2]].
    - left. exists (S k). split; [rewrite E1; f_equal; lia|done].
    - rewrite E1. destruct (Nat.eqb_spec q.2 i), (Nat.eqb_spec q.1 rank); simpl.
      + left. exists 0. split; [done|]. simpl. destruct q as [q1 q2]. simpl in *. by subst.
      + right. split; [done|]. apply not_elem_of_cons. split; [|done]. intros <-. done.
      + right. split; [done|]. apply not_elem_of_cons. split; [|done]. intros <-. done.
      + right. split; [done|]. apply not_elem_of_cons. split; [|done]. intros <-. done. }
  destruct (Hf ks 0 None) as [(k & E1 & E2)|[_ E2]]; [|done]. change (imap (fun k e => (0 + k, e)) (map E ks)) with (imap pair (map E ks)) in E1. rewrite E1. simpl.
  destruct ks as [|q0 ks0]; [done|]. assert (nb !! o = Some (E q0)) as N0 by (specialize (He 0 (E q0) eq_refl); by rewrite Nat.add_0_r in He). rewrite N0. simpl.
  assert (k < length (q0 :: ks0)) as Hk by (by apply lookup_lt_Some in E2).
  assert (nb !! (o + k) = Some (E (rank, i))) as Nk by (apply He; change (E q0 :: map E ks0) with (map E (q0 :: ks0)); by rewrite list_lookup_fmap, E2). rewrite Nk. simpl.
  destruct (rows_write offset n nb rs i _ o 0 (E (rank, i)) HR Hi Ho ltac:(simpl; lia)) as [B1 R1]. rewrite Nat.add_0_r in B1, R1. rewrite wr_Some by done. simpl.
  assert (i < length rs) as Hir by (by apply lookup_lt_Some in Hi).
  destruct (rows_write offset n _ _ i (<[0:=E (rank, i)]> (map E (q0 :: ks0))) o k (E q0) R1 ltac:(by rewrite list_lookup_insert) Ho ltac:(rewrite insert_length, map_length; done)) as [B2 R2].
  rewrite wr_Some by done. simpl. rewrite list_insert_insert in R2.
  set (ks' := <[k := q0]> (<[0 := (rank, i)]> (q0 :: ks0))).
  assert (<[k:=E q0]> (<[0:=E (rank, i)]> (map E (q0 :: ks0))) = map E ks') as Em by (unfold ks'; by rewrite !list_fmap_insert).
  assert (ks' ≡ₚ q0 :: ks0) as HP.
  { destruct (decide (k = 0)) as [->|Hne]; [simpl in E2; injection E2 as ->; done|].
    unfold ks'. rewrite (list_insert_commute (q0 :: ks0)) by done. apply insert_swap_perm; done. }
  assert (exists t, ks' = (rank, i) :: t) as [t Et].
  { unfold ks'. destruct k as [|k]; simpl in *; [injection E2 as ->; by eexists|by eexists]. }
  rewrite Em, Et in R2. cbn [map] in R2. exists (<[o + k:=E q0]> (<[o:=E (rank, i)]> nb)), t.
  assert (<[o + k:=E q0]> (<[o:=E (rank, i)]> nb) !! o = Some (E (rank, i))) as S1.
  { destruct R2 as (_ & _ & R2). destruct (R2 i _ ltac:(by rewrite list_lookup_insert)) as (o' & F1 & _ & F2). rewrite Ho in F1. injection F1 as <-. specialize (F2 0 _ eq_refl). by rewrite Nat.add_0_r in F2. }
  split; [|split; [by rewrite !insert_length|split; [by rewrite <- Et|done]]].
  rewrite S1. simpl. by rewrite !Nat.eqb_refl.
Qed.
End Keys.
