(** Proofs about the concurrent union-find. *)
From Verif Require Export Interleave UnionFindSpec.

(** ** Following labels downwards *)
Definition lab (l : list nat) (x : nat) : nat := default x (l !! x).
Fixpoint rt (l : list nat) (fuel x : nat) : nat :=
  match fuel with O => x | S f => if lab l x <? x then rt l f (lab l x) else x end.
Definition root (l : list nat) (x : nat) : nat := rt l x x.

Lemma rt_fuel l f1 : forall f2 x, x <= f1 -> x <= f2 -> rt l f1 x = rt l f2 x.
Proof.
  induction f1 as [|f1 IH]; intros f2 x H1 H2.
  - assert (x = 0) as -> by lia. destruct f2; simpl; [done|]. destruct (Nat.ltb_spec (lab l 0) 0); [lia|done].
  - destruct f2 as [|f2]; simpl.
    + assert (x = 0) as -> by lia. destruct (Nat.ltb_spec (lab l 0) 0); [lia|done].
    + destruct (Nat.ltb_spec (lab l x) x); [|done]. apply IH; lia.
Qed.
Lemma root_unfold l x : root l x = if lab l x <? x then root l (lab l x) else x.
Proof.
  unfold root at 1. destruct x as [|x]; simpl; [done|].
  destruct (Nat.ltb_spec (lab l (S x)) (S x)); [|done]. apply rt_fuel; lia.
Qed.
Lemma root_lt l x : lab l x < x -> root l x = root l (lab l x).
Proof. intros H. rewrite root_unfold. destruct (Nat.ltb_spec (lab l x) x); [done|lia]. Qed.
Lemma root_ge l x : x <= lab l x -> root l x = x.
Proof. intros H. rewrite root_unfold. destruct (Nat.ltb_spec (lab l x) x); [lia|done]. Qed.
Lemma root_le l x : root l x <= x.
Proof.
  induction x as [x IH] using lt_wf_ind. rewrite root_unfold.
  destruct (Nat.ltb_spec (lab l x) x) as [H|H]; [|done]. specialize (IH _ H). lia.
Qed.
Lemma lab_insert l p q x : p < length l -> lab (<[p:=q]> l) x = if decide (x = p) then q else lab l x.
Proof.
  intros Hp. unfold lab. destruct (decide (x = p)) as [->|].
  - by rewrite list_lookup_insert.
  - by rewrite list_lookup_insert_ne.
Qed.

Lemma root_compress l p q : p < length l -> lab l p < p -> q < p -> root l q = root l p ->
  forall x, root (<[p:=q]> l) x = root l x.
Proof.
  intros Hp Hl Hq HR x. induction x as [x IH] using lt_wf_ind.
  rewrite (root_unfold _ x), (root_unfold l x), lab_insert by done.
  destruct (decide (x = p)) as [->|].
  - destruct (Nat.ltb_spec q p); [|lia]. destruct (Nat.ltb_spec (lab l p) p); [|lia].
    rewrite IH by done. rewrite HR. by apply root_lt.
  - destruct (Nat.ltb_spec (lab l x) x) as [H|H]; [by apply IH|done].
Qed.

Lemma root_link l o v : o < length l -> lab l o = o -> v < o ->
  forall x, root (<[o:=v]> l) x = if decide (root l x = o) then root l v else root l x.
Proof.
  intros Ho Hl Hv x. induction x as [x IH] using lt_wf_ind.
  assert (root l v <> o) as Hvo by (pose proof (root_le l v); lia).
  rewrite (root_unfold _ x), lab_insert by done.
  destruct (decide (x = o)) as [->|Hx].
  - destruct (Nat.ltb_spec v o); [|lia]. rewrite (IH v Hv). destruct (decide (root l v = o)); [done|].
    rewrite (root_ge l o) by lia. by destruct (decide (o = o)).
  - rewrite (root_unfold l x). destruct (Nat.ltb_spec (lab l x) x) as [H|H].
    + by apply IH.
    + by destruct (decide (x = o)).
Qed.

Section UF.
Variable n : nat.
Variable C : nat -> Prop.               (* the points that may be merged *)
Variable R : nat -> nat -> Prop.        (* an equivalence allowed by the requests *)
Variable progs : list (list uop).
Hypothesis R_refl : forall x, R x x.
Hypothesis R_sym : forall x y, R x y -> R y x.
Hypothesis R_trans : forall x y z, R x y -> R y z -> R x z.

Definition op_ok (op : uop) : Prop :=
  match op with
  | Merge i j => (C i /\ i < n) /\ (C j /\ j < n) /\ R i j
  | Into x j => ~ C x /\ x < n /\ C j /\ j < n
  | Guard i j _ => (C i /\ i < n) /\ (C j /\ j < n)
  end.
Hypothesis progs_ok : forall prog op, prog ∈ progs -> op ∈ prog -> op_ok op.

(** labels of mergeable points go down and stay among mergeable points *)
Record GoodL (l : list nat) : Prop := {
  gl_len : length l = n;
  gl_core : forall c, C c -> c < n -> C (lab l c) /\ lab l c <= c;
  gl_sound : forall c, C c -> c < n -> R c (root l c);
  gl_other : forall x, x < n -> ~ C x -> lab l x = x \/
     (C (lab l x) /\ lab l x < n /\ exists prog j, prog ∈ progs /\ Into x j ∈ prog /\ R (lab l x) j) }.

Lemma GoodL_root l c : GoodL l -> C c -> c < n -> C (root l c) /\ lab l (root l c) = root l c.
Proof.
  intros G. induction c as [c IH] using lt_wf_ind. intros Hc Hn. destruct (gl_core l G c Hc Hn) as [H1 H2].
  rewrite root_unfold. destruct (Nat.ltb_spec (lab l c) c).
  - apply IH; auto; lia.
  - split; [done|]. lia.
Qed.

(** How the labels may change in one step: [up l l'] *)
Record up (l l' : list nat) : Prop := {
  up_core : forall x y, C x -> x < n -> C y -> y < n -> root l x = root l y -> root l' x = root l' y;
  up_nonroot : forall x, C x -> x < n -> lab l x < x -> lab l' x < x;
  up_assigned : forall x, ~ C x -> x < n -> C (lab l x) -> C (lab l' x) }.

Lemma up_refl l : up l l.
Proof. constructor; auto. Qed.

(** the current state of a program *)
Inductive Exec (l : list nat) : list uop -> list uop -> Prop :=
| ex_nil p : Exec l p p
| ex_merge i j p r : root l i = root l j -> Exec l p r -> Exec l (Merge i j :: p) r
| ex_into x j p r : C (lab l x) -> Exec l p r -> Exec l (Into x j :: p) r
| ex_pass i j k p r : Exec l p r -> Exec l (Guard i j k :: p) r
| ex_skip i j k p r : root l i = root l j -> Exec l (drop k p) r -> Exec l (Guard i j k :: p) r.

Lemma Exec_merge l p i j r : Exec l p (Merge i j :: r) -> root l i = root l j -> Exec l p r.
Proof.
  intros H. remember (Merge i j :: r) as q eqn:E. revert E. induction H; intros ->; intros HR.
  - constructor; [done|constructor].
  - constructor; auto.
  - constructor; auto.
  - constructor; auto.
  - eapply ex_skip; eauto.
Qed.
Lemma Exec_into l p x j r : Exec l p (Into x j :: r) -> C (lab l x) -> Exec l p r.
Proof.
  intros H. remember (Into x j :: r) as q eqn:E. revert E. induction H; intros ->; intros HR.
  - constructor; [done|constructor].
  - constructor; auto.
  - constructor; auto.
  - constructor; auto.
  - eapply ex_skip; eauto.
Qed.
Lemma Exec_pass l p i j k r : Exec l p (Guard i j k :: r) -> Exec l p r.
Proof.
  intros H. remember (Guard i j k :: r) as q eqn:E. revert E. induction H; intros ->.
  - constructor; constructor.
  - constructor; auto.
  - constructor; auto.
  - constructor; auto.
  - eapply ex_skip; eauto.
Qed.
Lemma Exec_skip l p i j k r : Exec l p (Guard i j k :: r) -> root l i = root l j -> Exec l p (drop k r).
Proof.
  intros H. remember (Guard i j k :: r) as q eqn:E. revert E. induction H; intros ->; intros HR.
  - eapply ex_skip; [done|constructor].
  - constructor; auto.
  - constructor; auto.
  - constructor; auto.
  - eapply ex_skip; eauto.
Qed.
Lemma drop_elem {A} k (p : list A) x : x ∈ drop k p -> x ∈ p.
Proof. revert p; induction k as [|k IH]; intros [|a p]; simpl; auto. intros H. right. by apply IH. Qed.
Lemma Exec_sub l p r : Exec l p r -> forall op, op ∈ r -> op ∈ p.
Proof. induction 1; intros op Hop; auto; try (right; auto). eapply drop_elem. eauto. Qed.
Lemma Exec_up l l' p r : up l l' -> (forall op, op ∈ p -> op_ok op) -> Exec l p r -> Exec l' p r.
Proof.
  intros U HO HE. induction HE as [p|i j p r HR HE IH|x j p r HC HE IH|i j k p r HE IH|i j k p r HR HE IH].
  - constructor.
  - destruct (HO (Merge i j)) as ((?&?)&(?&?)&_); [left|]. constructor; [by apply (up_core _ _ U)|].
    apply IH. intros op Hop. apply HO. by right.
  - destruct (HO (Into x j)) as (?&?&_); [left|]. constructor; [by apply (up_assigned _ _ U)|].
    apply IH. intros op Hop. apply HO. by right.
  - constructor. apply IH. intros op Hop. apply HO. by right.
  - destruct (HO (Guard i j k)) as ((?&?)&(?&?)); [left|]. eapply ex_skip; [by apply (up_core _ _ U)|].
    apply IH. intros op Hop. apply HO. right. by eapply drop_elem.
Qed.

(** thread-local facts *)
Definition sec (op : uop) : option nat := match op with Merge _ j => Some j | Guard _ j _ => Some j | Into _ _ => None end.
Definition Cn (c : nat) : Prop := C c /\ c < n.
(** [a] is the point whose representative is being computed; the first result is in the class of the first argument *)
Definition StOK (l : list nat) (op : uop) (st : option nat) (a : nat) : Prop :=
  match st with
  | None => a = first_arg op
  | Some v => sec op = Some a /\ Cn v /\ root l v = root l (first_arg op)
  end.
Definition PcOK (l : list nat) (op : uop) (pc : upc) : Prop :=
  match pc with
  | Rep0 i st => Cn i /\ StOK l op st i
  | Rep1 p c st => exists a, Cn p /\ Cn c /\ c < p /\ lab l p < p /\ root l p = root l a /\ root l c = root l a /\ StOK l op st a /\ Cn a
  | Rep2 p c nx st => exists a, Cn p /\ Cn c /\ Cn nx /\ nx < c /\ c < p /\ lab l p < p /\ lab l c < c /\ root l p = root l a /\ root l c = root l a /\
       root l nx = root l a /\ StOK l op st a /\ Cn a
  | Cas v o => exists i j, op = Merge i j /\ Cn v /\ Cn o /\ v <> o /\ root l v = root l i /\ root l o = root l j
  | Store r => exists x j, op = Into x j /\ Cn r /\ root l r = root l j
  end.
Definition ThOK (l : list nat) (prog : list uop) (th : uthread) : Prop :=
  match th with
  | (rest, None) => rest = [] /\ Exec l prog []
  | (rest, Some (op, pc)) => Exec l prog (op :: rest) /\ PcOK l op pc
  end.

Lemma op_args op : op_ok op -> Cn (first_arg op) /\ forall j, sec op = Some j -> Cn j.
Proof. destruct op; simpl; intros H; split; try (intros ? [= <-]); unfold Cn; tauto. Qed.

Lemma StOK_up l l' op st a : up l l' -> op_ok op -> StOK l op st a -> StOK l' op st a.
Proof.
  intros U HO. destruct st as [v|]; [|done]. simpl. intros (H1 & H2 & H3). split; [done|]. split; [done|].
  destruct (op_args op HO) as [H _]. destruct H2, H. by apply (up_core _ _ U).
Qed.
Lemma PcOK_up l l' op pc : up l l' -> op_ok op -> PcOK l op pc -> PcOK l' op pc.
Proof.
  intros U HO. pose proof (op_args op HO) as [Hf Hs].
  assert (forall x y, Cn x -> Cn y -> root l x = root l y -> root l' x = root l' y) as UC.
  { intros x y [] []. by apply (up_core _ _ U). }
  assert (forall x, Cn x -> lab l x < x -> lab l' x < x) as UN.
  { intros x []. by apply (up_nonroot _ _ U). }
  destruct pc as [i st|p c st|p c nx st|v o|r]; simpl.
  - intros [H1 H2]. split; [done|]. by eapply StOK_up.
  - intros (a & H1 & H2 & H3 & H4 & H5 & H6 & H7 & H8). exists a.
    split; [done|]. split; [done|]. split; [done|]. split; [auto|]. split; [auto|]. split; [auto|]. split; [|done]. by eapply StOK_up.
  - intros (a & H1 & H2 & H3 & H4 & H5 & H6 & H6' & H7 & H8 & H9 & H10 & H11). exists a.
    split; [done|]. split; [done|]. split; [done|]. split; [done|]. split; [done|]. split; [auto|]. split; [auto|]. split; [auto|].
    split; [auto|]. split; [auto|]. split; [|done]. by eapply StOK_up.
  - intros (i & j & -> & H1 & H2 & H3 & H4 & H5). simpl in HO. destruct HO as (Hi & Hj & _).
    exists i, j. split; [done|]. split; [done|]. split; [done|]. split; [done|]. split; apply UC; auto.
  - intros (x & j & -> & H1 & H2). simpl in HO. destruct HO as (_ & _ & Hj).
    exists x, j. split; [done|]. split; [done|]. apply UC; auto.
Qed.

Record UInv (s : ustate) : Prop := {
  ui_good : GoodL (u_labels s);
  ui_len : length (u_thr s) = length progs;
  ui_thr : forall t prog th, progs !! t = Some prog -> u_thr s !! t = Some th -> ThOK (u_labels s) prog th }.

(** Potential: bounds the number of remaining steps. *)
Definition rootbit (l : list nat) (x : nat) : nat := if lab l x <? x then 0 else 1.
Definition K : nat := 8 * n + 12.
Definition pcpot (l : list nat) (op : uop) (pc : upc) : nat :=
  let base (st : option nat) := match st with None => match op with Into _ _ => 1 | _ => 6 * n + 6 end | Some _ => 4 * n + 2 end in
  match pc with
  | Rep0 i st => base st + 2 * i + 2
  | Rep1 _ c st => base st + 2 * c + 1
  | Rep2 _ c _ st => base st + 2 * c
  | Cas v o => 2 * (v + o) + rootbit l (max v o) + 1
  | Store _ => 1
  end.
Definition thpot (l : list nat) (th : uthread) : nat :=
  K * length (fst th) + match snd th with None => 0 | Some (op, pc) => pcpot l op pc end.
Definition upot (s : ustate) : nat := sum_list_with (thpot (u_labels s)) (u_thr s).

Lemma start_pot l prog : (forall op, op ∈ prog -> op_ok op) -> thpot l (ustart prog) <= K * length prog.
Proof.
  intros HO. destruct prog as [|op rest]; unfold thpot; simpl; [lia|].
  destruct (op_args op) as [[_ H] _]; [apply HO; left|]. unfold K. destruct op; simpl in *; lia.
Qed.

Lemma start_ok l prog rest : (forall op, op ∈ prog -> op_ok op) -> Exec l prog rest -> ThOK l prog (ustart rest).
Proof.
  intros HO HE. destruct rest as [|op rest]; simpl; [done|]. split; [done|].
  destruct (op_args op) as [H _]; [apply HO; eapply Exec_sub; [done|left]|]. done.
Qed.

(** representative returned r, which is in the class of a *)
Lemma ret_ok l prog op st a r rest : (forall op, op ∈ prog -> op_ok op) -> Exec l prog (op :: rest) ->
  StOK l op st a -> Cn r -> root l r = root l a -> ThOK l prog (uret op st r rest).
Proof.
  intros HO HE HS Hr HR. assert (op_ok op) as Hop by (apply HO; eapply Exec_sub; [done|left]).
  destruct (op_args op Hop) as [Hf Hs].
  destruct op as [i j|x j|i j k], st as [v|]; simpl in *.
  - destruct HS as ([= <-] & Hv & HRv). destruct (Nat.eqb_spec v r) as [->|Hne].
    + apply start_ok; [done|]. eapply Exec_merge; [done|]. congruence.
    + simpl. split; [done|]. exists i, j. split; [done|]. split; [done|]. split; [done|]. split; [done|]. split; congruence.
  - subst a. split; [done|]. split; [by apply Hs|]. split; [done|]. split; [done|]. done.
  - by destruct HS.
  - subst a. split; [done|]. exists x, j. done.
  - destruct HS as ([= <-] & Hv & HRv). apply start_ok; [done|]. destruct (Nat.eqb_spec v r) as [->|Hne].
    + eapply Exec_skip; [done|]. congruence.
    + by eapply Exec_pass.
  - subst a. split; [done|]. split; [by apply Hs|]. split; [done|]. split; [done|]. done.
Qed.

Lemma drop_length_le {A} k (p : list A) : length (drop k p) <= length p.
Proof. rewrite drop_length. lia. Qed.

Lemma ret_pot l op st a r rest : op_ok op -> (forall op, op ∈ rest -> op_ok op) -> StOK l op st a -> Cn a -> Cn r ->
  thpot l (uret op st r rest) <= K * length rest + match st with None => match op with Into _ _ => 1 | _ => 6 * n + 4 end | Some _ => 4 * n end.
Proof.
  intros Hop HO HS Ha Hr. destruct (op_args op Hop) as [Hf Hs]. destruct Hr as [_ Hr], Ha as [_ Ha].
  destruct op as [i j|x j|i j k], st as [v|]; simpl in HS; cbn [uret].
  - destruct HS as ([= <-] & [_ Hv] & _). destruct (Nat.eqb_spec v r) as [->|Hne].
    + pose proof (start_pot l rest HO). lia.
    + unfold thpot; simpl. unfold rootbit. destruct (_ <? _); lia.
  - destruct (Hs j eq_refl) as [_ Hj]. unfold thpot; simpl. lia.
  - by destruct HS.
  - unfold thpot; simpl. lia.
  - destruct HS as ([= <-] & [_ Hv] & _). destruct (Nat.eqb_spec v r) as [->|Hne].
    + pose proof (start_pot l (drop k rest) (fun op H => HO op (drop_elem _ _ _ H))). pose proof (drop_length_le k rest).
      assert (K * length (drop k rest) <= K * length rest) by (apply Nat.mul_le_mono_l; done). lia.
    + pose proof (start_pot l rest HO). lia.
  - destruct (Hs j eq_refl) as [_ Hj]. unfold thpot; simpl. lia.
Qed.

Lemma sum_le {A} (f g : A -> nat) l : (forall x, x ∈ l -> f x <= g x) -> sum_list_with f l <= sum_list_with g l.
Proof.
  induction l as [|a l IH]; intros H; simpl; [lia|]. pose proof (H a ltac:(left)).
  assert (sum_list_with f l <= sum_list_with g l); [|lia]. apply IH. intros x Hx. apply H. by right.
Qed.

Lemma sum_insert_lt {A} (f g : A -> nat) l : forall t p q, l !! t = Some p -> (forall x, x ∈ l -> f x <= g x) -> f q < g p ->
  sum_list_with f (<[t:=q]> l) < sum_list_with g l.
Proof.
  induction l as [|a l IH]; intros [|t] p q Ht H Hpq; try done; simpl.
  - injection Ht as ->. assert (sum_list_with f l <= sum_list_with g l); [|lia]. apply sum_le. intros x Hx. apply H. by right.
  - pose proof (H a ltac:(left)). assert (sum_list_with f (<[t:=q]> l) < sum_list_with g l); [|lia].
    eapply IH; [exact Ht| |done]. intros x Hx. apply H. by right.
Qed.
Lemma pot_up s l' th : UInv s -> up (u_labels s) l' -> th ∈ u_thr s -> thpot l' th <= thpot (u_labels s) th.
Proof.
  intros I U Hth. apply elem_of_list_lookup in Hth as [t Ht].
  destruct (lookup_lt_is_Some_2 progs t) as [prog Hp]; [rewrite <- (ui_len _ I); by eapply lookup_lt_Some|].
  pose proof (ui_thr _ I _ _ _ Hp Ht) as HT. destruct th as [rest [[op pc]|]]; unfold thpot; simpl; [|lia].
  destruct pc as [| | |v o|]; simpl; try lia. destruct HT as [_ (i & j & _ & Hv & Ho & _)].
  unfold rootbit. assert (Cn (max v o)) as [Hm1 Hm2] by (destruct (Nat.max_spec v o) as [[_ ->]|[_ ->]]; done).
  destruct (Nat.ltb_spec (lab (u_labels s) (max v o)) (max v o)) as [Hl|Hl]; [|destruct (_ <? _); lia].
  apply (up_nonroot _ _ U) in Hl; [|done|done]. destruct (Nat.ltb_spec (lab l' (max v o)) (max v o)); lia.
Qed.

(** One step of a thread whose new labels are above the old ones. *)
Lemma step_frame s t prog th l' th' : UInv s -> progs !! t = Some prog -> u_thr s !! t = Some th ->
  up (u_labels s) l' -> GoodL l' -> ThOK l' prog th' -> thpot l' th' < thpot (u_labels s) th ->
  UInv (UState l' (<[t:=th']> (u_thr s))) /\ upot (UState l' (<[t:=th']> (u_thr s))) < upot s /\
  up (u_labels s) (u_labels (UState l' (<[t:=th']> (u_thr s)))).
Proof.
  intros I Hp Ht U G HT Hpot. split; [|split; [|done]].
  - constructor; simpl; [done|rewrite insert_length; apply I|].
    intros u prog' th'' Hp' Hu. apply upd_cases in Hu as [(-> & -> & _)|[Hne Hu]].
    + assert (prog' = prog) by congruence. by subst.
    + pose proof (ui_thr _ I _ _ _ Hp' Hu) as HT'. destruct th'' as [rest [[op pc]|]]; simpl in HT' |- *.
      * destruct HT' as [HE HPc].
        assert (forall op, op ∈ prog' -> op_ok op) as HO.
        { intros o Ho. eapply progs_ok; [|done]. by eapply elem_of_list_lookup_2. }
        split; [by eapply Exec_up|]. eapply PcOK_up; [done| |done]. apply HO. eapply Exec_sub; [done|left].
      * destruct HT' as [-> HE]. split; [done|]. eapply Exec_up; [done| |done].
        intros o Ho. eapply progs_ok; [|done]. by eapply elem_of_list_lookup_2.
  - unfold upot. simpl. eapply sum_insert_lt; [exact Ht| |exact Hpot]. intros u Hu. by eapply pot_up.
Qed.

Lemma lab_lookup l x : x < length l -> l !! x = Some (lab l x).
Proof. intros H. unfold lab. apply lookup_lt_is_Some in H as [y Hy]. by rewrite Hy. Qed.

(** path compression *)
Lemma compress_ok l p q : GoodL l -> Cn p -> Cn q -> q < p -> lab l p < p -> root l p = root l q ->
  GoodL (<[p:=q]> l) /\ up l (<[p:=q]> l).
Proof.
  intros G [Hp1 Hp2] [Hq1 Hq2] Hqp Hl HR. pose proof (gl_len _ G) as Hlen.
  assert (forall x, root (<[p:=q]> l) x = root l x) as HRR by (apply root_compress; auto; lia).
  assert (forall x, lab (<[p:=q]> l) x = if decide (x = p) then q else lab l x) as HL by (intros; apply lab_insert; lia).
  split; constructor.
  - by rewrite insert_length.
  - intros c H1 H2. rewrite HL. destruct (decide (c = p)) as [->|]; [split; [done|lia]|]. by apply (gl_core _ G).
  - intros c H1 H2. rewrite HRR. by apply (gl_sound _ G).
  - intros x H1 H2. rewrite HL. destruct (decide (x = p)) as [->|]; [done|]. by apply (gl_other _ G).
  - intros x y _ _ _ _. by rewrite !HRR.
  - intros x _ _ Hx. rewrite HL. destruct (decide (x = p)) as [->|]; done.
  - intros x Hx _ H. rewrite HL. destruct (decide (x = p)) as [->|]; done.
Qed.

(** a root is linked below a smaller point *)
Lemma link_ok l o v : GoodL l -> Cn o -> Cn v -> v < o -> lab l o = o -> R o v ->
  GoodL (<[o:=v]> l) /\ up l (<[o:=v]> l) /\ root (<[o:=v]> l) o = root (<[o:=v]> l) v.
Proof.
  intros G [Hp1 Hp2] [Hq1 Hq2] Hqp Hl HR. pose proof (gl_len _ G) as Hlen.
  assert (forall x, root (<[o:=v]> l) x = if decide (root l x = o) then root l v else root l x) as HRR by (apply root_link; auto; lia).
  assert (forall x, lab (<[o:=v]> l) x = if decide (x = o) then v else lab l x) as HL by (intros; apply lab_insert; lia).
  split; [|split]; [constructor|constructor|].
  - by rewrite insert_length.
  - intros c H1 H2. rewrite HL. destruct (decide (c = o)) as [->|]; [split; [done|lia]|]. by apply (gl_core _ G).
  - intros c H1 H2. rewrite HRR. pose proof (gl_sound _ G c H1 H2) as HS. destruct (decide (root l c = o)) as [E|]; [|done].
    rewrite E in HS. eapply R_trans; [exact HS|]. eapply R_trans; [exact HR|]. by apply (gl_sound _ G).
  - intros x H1 H2. rewrite HL. destruct (decide (x = o)) as [->|]; [done|]. by apply (gl_other _ G).
  - intros x y _ _ _ _ E. rewrite !HRR. by rewrite E.
  - intros x _ _ Hx. rewrite HL. destruct (decide (x = o)) as [->|]; done.
  - intros x Hx _ H. rewrite HL. destruct (decide (x = o)) as [->|]; done.
  - rewrite root_lt; rewrite HL; destruct (decide (o = o)); done.
Qed.

(** the label of a point that is never merged is set *)
Lemma root_outside l x y : GoodL l -> ~ C x -> forall c, Cn c -> root (<[x:=y]> l) c = root l c.
Proof.
  intros G Hx c. induction c as [c IH] using lt_wf_ind. intros [Hc Hn].
  assert (lab (<[x:=y]> l) c = lab l c) as E.
  { unfold lab. rewrite list_lookup_insert_ne; [done|]. congruence. }
  rewrite (root_unfold _ c), (root_unfold l c), E. destruct (Nat.ltb_spec (lab l c) c); [|done].
  apply IH; [done|]. destruct (gl_core _ G c Hc Hn). split; [done|lia].
Qed.
Lemma into_ok l prog x j r : GoodL l -> prog ∈ progs -> Into x j ∈ prog -> ~ C x -> x < n -> Cn r -> Cn j -> root l r = root l j ->
  GoodL (<[x:=r]> l) /\ up l (<[x:=r]> l) /\ C (lab (<[x:=r]> l) x).
Proof.
  intros G Hpr Hin Hx Hxn [Hr1 Hr2] [Hj1 Hj2] HR. pose proof (gl_len _ G) as Hlen.
  pose proof (root_outside l x r G Hx) as HRR.
  assert (forall y, lab (<[x:=r]> l) y = if decide (y = x) then r else lab l y) as HL by (intros; apply lab_insert; lia).
  split; [|split]; [constructor|constructor|].
  - by rewrite insert_length.
  - intros c H1 H2. rewrite HL. destruct (decide (c = x)) as [->|]; [done|]. by apply (gl_core _ G).
  - intros c H1 H2. rewrite HRR by done. by apply (gl_sound _ G).
  - intros y H1 H2. rewrite HL. destruct (decide (y = x)) as [->|]; [|by apply (gl_other _ G)].
    right. split; [done|]. split; [done|]. exists prog, j. split; [done|]. split; [done|].
    eapply R_trans; [by apply (gl_sound _ G)|]. rewrite HR. apply R_sym. by apply (gl_sound _ G).
  - intros a b ? ? ? ? E. rewrite !HRR by done. done.
  - intros y Hy ? Hx'. rewrite HL. destruct (decide (y = x)) as [->|]; done.
  - intros y Hy _ H. rewrite HL. destruct (decide (y = x)) as [->|]; done.
  - rewrite HL. by destruct (decide (x = x)).
Qed.

Lemma core_lab l c : GoodL l -> Cn c -> Cn (lab l c) /\ lab l c <= c /\ root l (lab l c) = root l c.
Proof.
  intros G [H1 H2]. destruct (gl_core _ G c H1 H2) as [H3 H4]. split; [split; [done|lia]|]. split; [done|].
  destruct (decide (lab l c = c)) as [->|]; [done|]. symmetry. apply root_lt. lia.
Qed.

Lemma exec_in l prog op rest : Exec l prog (op :: rest) -> forall o, o ∈ rest -> o ∈ prog.
Proof. intros HE o Ho. eapply Exec_sub; [done|by right]. Qed.

Lemma ustep_inv s t s' : UInv s -> ustep s t = Some s' -> UInv s' /\ upot s' < upot s /\ up (u_labels s) (u_labels s').
Proof.
  intros I. unfold ustep. destruct (u_thr s !! t) as [[rest [[op pc]|]]|] eqn:Ht; simpl; [|done|done].
  destruct (lookup_lt_is_Some_2 progs t) as [prog Hp]; [rewrite <- (ui_len _ I); by eapply lookup_lt_Some|].
  destruct (ui_thr _ I _ _ _ Hp Ht) as [HE HPc]. pose proof (ui_good _ I) as G. pose proof (gl_len _ G) as Hlen.
  assert (prog ∈ progs) as Hpr by (by eapply elem_of_list_lookup_2).
  assert (forall op, op ∈ prog -> op_ok op) as HO by (intros; by eapply progs_ok).
  assert (op_ok op) as Hop by (apply HO; eapply Exec_sub; [exact HE|left]).
  assert (forall op, op ∈ rest -> op_ok op) as HOr by (intros o Ho; apply HO; eapply exec_in; eauto).
  set (l := u_labels s) in *.
  destruct pc as [i st|p c st|p c nx st|v o|r]; simpl.
  - destruct HPc as [Hi HS]. destruct Hi as [Hi1 Hi2].
    rewrite lab_lookup by lia. simpl. intros [= <-].
    destruct (core_lab l i G (conj Hi1 Hi2)) as (Hc & Hle & HR).
    eapply step_frame; eauto using up_refl.
    + fold l. destruct (Nat.eqb_spec (lab l i) i) as [E|E].
      * eapply ret_ok; eauto. done.
      * simpl. split; [done|]. exists i. split; [done|]. split; [done|]. split; [lia|]. split; [lia|]. done.
    + fold l. destruct (Nat.eqb_spec (lab l i) i) as [E|E].
      * eapply Nat.le_lt_trans; [eapply ret_pot; eauto; done|]. unfold thpot; simpl. destruct st; destruct op; lia.
      * unfold thpot; simpl. lia.
  - destruct HPc as (a & Hpp & Hc & Hcp & Hlp & HRp & HRc & HS & Ha).
    rewrite lab_lookup by (destruct Hc; lia). simpl. intros [= <-].
    destruct (core_lab l c G Hc) as (Hc' & Hle & HR).
    eapply step_frame; eauto using up_refl.
    + fold l. destruct (Nat.ltb_spec (lab l c) c) as [E|E].
      * simpl. split; [done|]. exists a. do 7 (split; [done|]). split; [done|]. split; [done|]. split; [congruence|]. done.
      * eapply ret_ok; eauto.
    + fold l. destruct (Nat.ltb_spec (lab l c) c) as [E|E].
      * unfold thpot; simpl. lia.
      * eapply Nat.le_lt_trans; [eapply ret_pot; eauto; done|]. unfold thpot; simpl. destruct st; destruct op; lia.
  - destruct HPc as (a & Hpp & Hc & Hnx & Hnc & Hcp & Hlp & Hlc & HRp & HRc & HRn & HS & Ha).
    rewrite wr_Some by (destruct Hpp; lia). simpl. intros [= <-].
    destruct (compress_ok l p nx G Hpp Hnx) as [G' U]; [lia|done|congruence|].
    eapply step_frame; eauto.
    + simpl. split; [by eapply Exec_up|].
      assert (PcOK (<[p:=nx]> l) op (Rep2 p c nx st)) as HPc.
      { eapply PcOK_up; [exact U|done|]. exists a. done. }
      destruct HPc as (a' & ? & ? & ? & ? & ? & ? & ? & ? & ? & ? & ? & ?). exists a'. done.
    + unfold thpot; simpl. lia.
  - destruct HPc as (i & j & -> & Hv & Ho & Hvo & HRv & HRo).
    destruct Hop as (Hi & Hj & HRij).
    assert (R v o) as HRvo.
    { destruct Hv, Ho, Hi, Hj. eapply R_trans; [by apply (gl_sound _ G)|]. fold l. rewrite HRv.
      eapply R_trans; [apply R_sym; by apply (gl_sound _ G)|]. eapply R_trans; [exact HRij|].
      eapply R_trans; [by apply (gl_sound _ G)|]. fold l. rewrite <- HRo. apply R_sym. by apply (gl_sound _ G). }
    destruct (Nat.ltb_spec v o) as [Hlt|Hge].
    + rewrite lab_lookup by (destruct Ho; lia). simpl. destruct (core_lab l o G Ho) as (Hco & Hle & HRo').
      destruct (Nat.eqb_spec (lab l o) o) as [E|E].
      * intros [= <-]. rewrite E. destruct (Nat.eqb_spec v o); [done|].
        destruct (link_ok l o v G Ho Hv Hlt E (R_sym _ _ HRvo)) as (G' & U & HR').
        eapply step_frame; eauto.
        -- split; [by eapply Exec_up|]. eapply PcOK_up; [exact U|done|]. exists i, j. done.
        -- unfold thpot; simpl. unfold rootbit. replace (max v o) with o by lia. rewrite lab_insert by (destruct Ho; lia).
           fold l. rewrite E. destruct (decide (o = o)); [|done]. destruct (Nat.ltb_spec v o); [|lia]. destruct (Nat.ltb_spec o o); lia.
      * intros [= <-]. eapply step_frame; eauto using up_refl.
        -- fold l. destruct (Nat.eqb_spec v (lab l o)) as [Ev|Ev].
           ++ apply start_ok; [done|]. eapply Exec_merge; [done|]. rewrite <- HRv, <- HRo, <- HRo'. by rewrite <- Ev.
           ++ simpl. split; [done|]. exists i, j. split; [done|]. split; [done|]. split; [done|]. split; [done|]. split; [done|]. congruence.
        -- fold l. destruct (Nat.eqb_spec v (lab l o)) as [Ev|Ev].
           ++ eapply Nat.le_lt_trans; [by apply start_pot|]. unfold thpot; simpl. lia.
           ++ unfold thpot; simpl. unfold rootbit. replace (max v o) with o by lia. destruct (_ <? _); destruct (_ <? _); lia.
    + rewrite lab_lookup by (destruct Hv; lia). simpl. destruct (core_lab l v G Hv) as (Hco & Hle & HRv').
      destruct (Nat.eqb_spec (lab l v) v) as [E|E].
      * intros [= <-]. rewrite E. destruct (Nat.eqb_spec v o); [done|].
        destruct (link_ok l v o G Hv Ho ltac:(lia) E HRvo) as (G' & U & HR').
        eapply step_frame; eauto.
        -- split; [by eapply Exec_up|]. eapply PcOK_up; [exact U|done|]. exists i, j. done.
        -- unfold thpot; simpl. unfold rootbit. replace (max v o) with v by lia. rewrite lab_insert by (destruct Hv; lia).
           fold l. rewrite E. destruct (decide (v = v)); [|done]. destruct (Nat.ltb_spec o v); [|lia]. destruct (Nat.ltb_spec v v); lia.
      * intros [= <-]. eapply step_frame; eauto using up_refl.
        -- fold l. destruct (Nat.eqb_spec (lab l v) o) as [Ev|Ev].
           ++ apply start_ok; [done|]. eapply Exec_merge; [done|]. rewrite <- HRv, <- HRo, <- HRv'. by rewrite Ev.
           ++ simpl. split; [done|]. exists i, j. split; [done|]. split; [done|]. split; [done|]. split; [done|]. split; [congruence|]. done.
        -- fold l. destruct (Nat.eqb_spec (lab l v) o) as [Ev|Ev].
           ++ eapply Nat.le_lt_trans; [by apply start_pot|]. unfold thpot; simpl. lia.
           ++ unfold thpot; simpl. unfold rootbit. replace (max v o) with v by lia. destruct (_ <? _); destruct (_ <? _); lia.
  - destruct HPc as (x & j & -> & Hr & HRj). destruct Hop as (Hx & Hxn & Hj).
    rewrite wr_Some by lia. simpl. intros [= <-].
    assert (Into x j ∈ prog) as Hin by (eapply Exec_sub; [exact HE|left]).
    destruct (into_ok l prog x j r G Hpr Hin Hx Hxn Hr Hj HRj) as (G' & U & HC).
    eapply step_frame; eauto.
    + apply start_ok; [done|]. eapply Exec_into; [by eapply Exec_up|done].
    + eapply Nat.le_lt_trans; [by apply start_pot|]. unfold thpot; simpl. lia.
Qed.

(** a thread that has not finished can always take its step *)
Lemma ustep_progress s t th : UInv s -> u_thr s !! t = Some th -> snd th <> None -> is_Some (ustep s t).
Proof.
  intros I Ht Hne. unfold ustep. rewrite Ht. simpl. destruct th as [rest [[op pc]|]]; [|done].
  destruct (lookup_lt_is_Some_2 progs t) as [prog Hp]; [rewrite <- (ui_len _ I); by eapply lookup_lt_Some|].
  destruct (ui_thr _ I _ _ _ Hp Ht) as [HE HPc]. pose proof (ui_good _ I) as G. pose proof (gl_len _ G) as Hlen.
  destruct pc as [i st|p c st|p c nx st|v o|r]; simpl.
  - destruct HPc as [[_ Hi] _]. rewrite lab_lookup by lia. simpl. eauto.
  - destruct HPc as (a & _ & [_ Hc] & _). rewrite lab_lookup by lia. simpl. eauto.
  - destruct HPc as (a & [_ Hpp] & _). rewrite wr_Some by lia. simpl. eauto.
  - destruct HPc as (i & j & -> & [_ Hv] & [_ Ho] & _). destruct (_ <? _); rewrite lab_lookup by lia; simpl; repeat destruct (_ =? _); eauto.
  - destruct HPc as (x & j & -> & _). assert (op_ok (Into x j)) as (_ & Hx & _).
    { eapply progs_ok; [by eapply elem_of_list_lookup_2|]. eapply Exec_sub; [exact HE|left]. }
    rewrite wr_Some by lia. simpl. eauto.
Qed.

Lemma uinit_inv labels0 : GoodL labels0 -> UInv (uinit labels0 progs) /\ upot (uinit labels0 progs) <= K * sum_list_with length progs.
Proof.
  intros G. split.
  - constructor; simpl; [done|by rewrite fmap_length|]. intros t prog th Hp Ht.
    rewrite list_lookup_fmap, Hp in Ht. injection Ht as <-. apply start_ok; [|constructor].
    intros op Hop. eapply progs_ok; [|done]. by eapply elem_of_list_lookup_2.
  - unfold upot. simpl. clear G.
    assert (forall ps, (forall prog op, prog ∈ ps -> op ∈ prog -> op_ok op) ->
      sum_list_with (thpot labels0) (ustart <$> ps) <= K * sum_list_with length ps) as H; [|by apply H].
    induction ps as [|p ps IH]; simpl; intros HO; [lia|].
    assert (thpot labels0 (ustart p) <= K * length p) as H1.
    { apply start_pot. intros op Hop. eapply HO; [left|done]. }
    assert (sum_list_with (thpot labels0) (ustart <$> ps) <= K * sum_list_with length ps) as H2.
    { apply IH. intros prog op H. apply HO. by right. }
    change (thpot labels0 (ustart p) + sum_list_with (thpot labels0) (ustart <$> ps) <= K * (length p + sum_list_with length ps)). lia.
Qed.

Lemma up_trans l1 l2 l3 : up l1 l2 -> up l2 l3 -> up l1 l3.
Proof.
  intros A B. constructor.
  - intros. apply (up_core _ _ B); auto. by apply (up_core _ _ A).
  - intros. apply (up_nonroot _ _ B); auto. by apply (up_nonroot _ _ A).
  - intros. apply (up_assigned _ _ B); auto. by apply (up_assigned _ _ A).
Qed.

Lemma uexec_ok labels0 ts s : GoodL labels0 -> execg ustep (uinit labels0 progs) ts s ->
  UInv s /\ up labels0 (u_labels s) /\ length ts <= K * sum_list_with length progs.
Proof.
  intros G He. destruct (uinit_inv labels0 G) as [I0 P0].
  assert ((UInv s /\ up labels0 (u_labels s)) /\ upot s + length ts <= upot (uinit labels0 progs)) as [[? ?] ?].
  { eapply (execg_inv ustep (fun s => UInv s /\ up labels0 (u_labels s)) upot); [| |exact He].
    - intros s1 t s2 [I U] Hs. destruct (ustep_inv _ _ _ I Hs) as (? & ? & ?). split; [|done]. split; [done|]. by eapply up_trans.
    - split; [done|]. apply up_refl. }
  split; [done|]. split; [done|]. lia.
Qed.

Lemma udone_ok s : UInv s -> uall_done s -> forall prog, prog ∈ progs -> Exec (u_labels s) prog [].
Proof.
  intros I HD prog Hp. apply elem_of_list_lookup in Hp as [t Ht].
  destruct (lookup_lt_is_Some_2 (u_thr s) t) as [th Hth]; [rewrite (ui_len _ I); by eapply lookup_lt_Some|].
  pose proof (ui_thr _ I _ _ _ Ht Hth) as HT. pose proof (HD _ _ Hth) as E. destruct th as [rest [[? ?]|]]; [done|].
  apply HT.
Qed.

Lemma GoodL_rootof l c : GoodL l -> Cn c -> RootOf l c (root l c).
Proof.
  intros G. induction c as [c IH] using lt_wf_ind. intros Hc. destruct (core_lab l c G Hc) as (H1 & H2 & H3).
  assert (l !! c = Some (lab l c)) as E by (apply lab_lookup; rewrite (gl_len _ G); apply Hc).
  rewrite root_unfold. destruct (Nat.ltb_spec (lab l c) c).
  - eapply root_up; [exact E|lia|]. by apply IH.
  - assert (lab l c = c) as E2 by lia. rewrite E2 in E. by apply root_here.
Qed.
End UF.

Lemma Exec_merged C l prog i j : (forall i j k, Guard i j k ∉ prog) -> Exec C l prog [] -> Merge i j ∈ prog -> root l i = root l j.
Proof.
  intros HG HE. remember [] as r eqn:E. revert E. induction HE as [p|a b p r HR HE IH|x b p r HC HE IH|a b k p r HE IH|a b k p r HR HE IH];
    intros -> Hin.
  - by apply elem_of_nil in Hin.
  - apply elem_of_cons in Hin as [Hin|Hin]; [by injection Hin as -> ->|]. apply IH; [|done|done].
    intros ? ? ? H. eapply HG. right. exact H.
  - apply elem_of_cons in Hin as [Hin|Hin]; [done|]. apply IH; [|done|done].
    intros ? ? ? H. eapply HG. right. exact H.
  - exfalso. eapply HG. left.
  - exfalso. eapply HG. left.
Qed.
Lemma Exec_assigned (C : nat -> Prop) l prog x j : (forall i j k, Guard i j k ∉ prog) -> Exec C l prog [] -> Into x j ∈ prog -> C (lab l x).
Proof.
  intros HG HE. remember [] as r eqn:E. revert E. induction HE as [p|a b p r HR HE IH|x' b p r HC HE IH|a b k p r HE IH|a b k p r HR HE IH];
    intros -> Hin.
  - by apply elem_of_nil in Hin.
  - apply elem_of_cons in Hin as [Hin|Hin]; [done|]. apply IH; [|done|done].
    intros ? ? ? H. eapply HG. right. exact H.
  - apply elem_of_cons in Hin as [Hin|Hin]; [by injection Hin as -> ->|]. apply IH; [|done|done].
    intros ? ? ? H. eapply HG. right. exact H.
  - exfalso. eapply HG. left.
  - exfalso. eapply HG. left.
Qed.

Lemma lab_seq n x : lab (seq 0 n) x = x.
Proof.
  unfold lab. destruct (seq 0 n !! x) as [y|] eqn:E; [|done]. apply lookup_seq in E as [-> _]. done.
Qed.
Lemma root_seq n x : root (seq 0 n) x = x.
Proof. apply root_ge. by rewrite lab_seq. Qed.
Lemma GoodL_seq n C (R : nat -> nat -> Prop) progs : (forall x, R x x) -> GoodL n C R progs (seq 0 n).
Proof.
  intros HR. constructor.
  - apply seq_length.
  - intros c Hc _. rewrite lab_seq. done.
  - intros c _ _. rewrite root_seq. done.
  - intros x _ _. left. apply lab_seq.
Qed.
Lemma Conn_equiv (R : nat -> nat -> Prop) : (forall x, Conn R x x) /\ (forall x y, Conn R x y -> Conn R y x) /\ (forall x y z, Conn R x y -> Conn R y z -> Conn R x z).
Proof. split; [|split]; intros; [apply rst_refl|by apply rst_sym|by eapply rst_trans]. Qed.
Lemma conn_core_lab n C R progs l c : GoodL n C (Conn R) progs l -> C c -> c < n ->
  C (lab l c) /\ lab l c <= c /\ root l (lab l c) = root l c.
Proof.
  intros G Hc Hn. destruct (Conn_equiv R) as (R1 & R2 & R3).
  destruct (core_lab n C (Conn R) progs R1 R2 R3 l c G (conj Hc Hn)) as ([? _] & ? & ?). done.
Qed.
Lemma conn_root n C R progs l c : GoodL n C (Conn R) progs l -> C c -> c < n -> C (root l c) /\ lab l (root l c) = root l c.
Proof. destruct (Conn_equiv R) as (R1 & R2 & R3). by apply (GoodL_root n C (Conn R) progs). Qed.
