(** C03-C09, C52: the per-query traversals (src/spatial/detail/ArborX_TreeTraversal.hpp, ArborX_HalfTraversal.hpp). *)
From Verif Require Import TreeConstructionProof DeltaProof TraversalProof NearestProof OrderedProof HeightProof PropertiesTree PropertiesMorton MortonModel.
From Verif Require Import TraversalSpec.
Local Open Scope nat_scope.

(** ** Axis-aligned boxes with integer coordinates, used by the examples and witnesses *)
Definition itv := (Z * Z)%type.
Definition zbox := option (itv * itv * itv).
Definition itv_in (a b : itv) : Prop := (fst b <= fst a /\ snd a <= snd b)%Z.
Definition itv_un (a b : itv) : itv := (Z.min (fst a) (fst b), Z.max (snd a) (snd b)).
Definition zle (a b : zbox) : Prop :=
  match a, b with
  | None, _ => True
  | Some _, None => False
  | Some (x, y, z), Some (x', y', z') => itv_in x x' /\ itv_in y y' /\ itv_in z z'
  end.
Definition zjoin (a b : zbox) : zbox :=
  match a, b with
  | None, _ => b
  | _, None => a
  | Some (x, y, z), Some (x', y', z') => Some (itv_un x x', itv_un y y', itv_un z z')
  end.
Lemma zbox_JoinSemi : JoinSemi zle zjoin None.
Proof.
  constructor; unfold zle, zjoin, itv_in, itv_un.
  - intros [[[x y] z]|]; [lia|done].
  - intros [[[x y] z]|] [[[x' y'] z']|] [[[x'' y''] z'']|]; try done. lia.
  - intros [[[x y] z]|] [[[x' y'] z']|]; cbn [fst snd]; try done; lia.
  - intros [[[x y] z]|] [[[x' y'] z']|]; cbn [fst snd]; try done; lia.
  - intros [[[x y] z]|] [[[x' y'] z']|] [[[x'' y''] z'']|]; cbn [fst snd]; try done; lia.
  - by intros [[[x y] z]|].
Qed.
Definition pt3 (x y z : Z) : zbox := Some ((x, x), (y, y), (z, z)).

(** squared distance of the query point to a box; -1 never occurs on non-empty boxes *)
Definition gap (q : Z) (a : itv) : Z := Z.max 0 (Z.max (fst a - q) (q - snd a)).
Definition zdist (q : Z * Z * Z) (b : zbox) : Z :=
  let '(qx, qy, qz) := q in
  match b with
  | None => 10 ^ 100
  | Some (x, y, z) => gap qx x * gap qx x + gap qy y * gap qy y + gap qz z * gap qz z
  end.
Definition zbig : Z := 10 ^ 100.

Lemma gap_mono q a b : itv_in a b -> (0 <= gap q b <= gap q a)%Z.
Proof. unfold itv_in, gap. lia. Qed.
Lemma sq_le a b : (0 <= a <= b -> a * a <= b * b)%Z.
Proof. intros. nia. Qed.

(** ** The index over any number of values *)
Lemma built_index {V} (le : V -> V -> Prop) join bot vol w codes perm T :
  JoinSemi le join bot -> (2 <= w)%Z -> length perm = length codes ->
  (Z.of_nat (length codes) <= 2 ^ (w - 1))%Z -> SortedCodes w codes ->
  built join bot vol w codes perm T -> Index le vol perm T.
Proof.
  intros JS Hw Hp Hmax HS HB. destruct perm as [|a [|b perm]].
  - simpl in HB. subst T. left. simpl. split; [lia|]. split; [done|]. by intros [|i].
  - simpl in HB. subst T. left. simpl. split; [lia|]. split; [done|]. intros [|[|i]]; done.
  - right. split; [simpl; lia|]. destruct HB as (ts & s & He & HD & HT).
    assert (2 <= length codes) as Hn by (rewrite <- Hp; simpl; lia).
    destruct (C01_every_schedule_builds_valid_tree V le join bot vol w codes _ JS Hw Hn Hp Hmax HS ts s He) as (_ & _ & H).
    destruct (H HD) as (T' & HT' & VT). congruence.
Qed.

Theorem C01_index_over_any_number_of_values :
  forall V (le : V -> V -> Prop) join bot vol w codes perm T,
  JoinSemi le join bot -> (2 <= w)%Z -> length perm = length codes ->
  (Z.of_nat (length codes) <= 2 ^ (w - 1))%Z -> SortedCodes w codes ->
  built join bot vol w codes perm T -> Index le vol perm T.
Proof. intros V. apply built_index. Qed.
Print Assumptions C01_index_over_any_number_of_values.

(** ** C03, C04: spatial queries *)
Theorem C03_spatial_reports_each_match_once :
  forall V (le : V -> V -> Prop) vol perm T pl pv, Index le vol perm T -> PruneSafe le vol pl pv ->
  exists calls, spatial_query T pl pv (fun out v => (out ++ [v], false)) [] = Ok calls /\
    calls = List.filter pl perm.
Proof.
  intros V le vol perm T pl pv HI HP.
  destruct (spatial_query_correct le vol perm T pl pv (fun out v => (out ++ [v], false)) HI HP []) as (calls & rest & st' & e & E & HF & HVis & He).
  assert (forall st calls st' e, Visits (fun (out : list nat) v => (out ++ [v], false)) st calls st' e -> st' = st ++ calls /\ e = false) as HV.
  { induction 1 as [st|st v st1 H|st v st1 l st2 e0 H H1 [IH1 IH2]]; [by rewrite app_nil_r|congruence|].
    injection H as <-. split; [|done]. rewrite IH1, <- app_assoc. done. }
  apply HV in HVis as [-> ->]. simpl in *. exists calls. split; [done|]. rewrite HF, He by done. by rewrite app_nil_r.
Qed.
Print Assumptions C03_spatial_reports_each_match_once.

(** Whole pipeline: whatever schedule built the tree, the callback is called exactly for the matching values. *)
Theorem C03_build_then_query :
  forall V (le : V -> V -> Prop) join bot vol w codes perm T pl pv,
  JoinSemi le join bot -> (2 <= w)%Z -> perm ≡ₚ seq 0 (length codes) ->
  (Z.of_nat (length codes) <= 2 ^ (w - 1))%Z -> SortedCodes w codes ->
  built join bot vol w codes perm T -> PruneSafe le vol pl pv ->
  exists calls, spatial_query T pl pv (fun out v => (out ++ [v], false)) [] = Ok calls /\
    NoDup calls /\ forall v, v ∈ calls <-> v < length codes /\ pl v = true.
Proof.
  intros V le join bot vol w codes perm T pl pv JS Hw HP Hmax HS HB Hpr.
  assert (length perm = length codes) as Hp by (rewrite HP; apply seq_length).
  destruct (C03_spatial_reports_each_match_once V le vol perm T pl pv (built_index le join bot vol w codes perm T JS Hw Hp Hmax HS HB) Hpr) as (calls & E & ->).
  exists (List.filter pl perm). split; [done|]. split.
  - apply NoDup_ListNoDup. apply List.NoDup_filter. apply NoDup_ListNoDup. rewrite HP. apply NoDup_seq.
  - intros v. rewrite elem_of_list_In, List.filter_In, <- elem_of_list_In, HP, elem_of_seq. split; intros [? ?]; (split; [lia|done]).
Qed.
Print Assumptions C03_build_then_query.

(** Early exit: the calls are a prefix of the full result (in leaf order); the first call asking for exit is the
    last one, and if no call asks for it the whole result is visited.  Any callback, any state. *)
Theorem C04_early_exit :
  forall V St (le : V -> V -> Prop) vol perm T pl pv (cb : St -> nat -> St * bool),
  Index le vol perm T -> PruneSafe le vol pl pv ->
  forall st, exists calls rest st' e,
    spatial_query T pl pv cb st = Ok st' /\ List.filter pl perm = calls ++ rest /\
    Visits cb st calls st' e /\ (e = false -> rest = []).
Proof. intros V St le vol perm T pl pv cb. apply spatial_query_correct. Qed.
Print Assumptions C04_early_exit.

(** ** C09: half traversal *)
Fixpoint pairs_from (pl : nat -> nat -> bool) (l : list nat) : list (list (nat * nat)) :=
  match l with [] => [] | a :: l => map (pair a) (List.filter (pl a) l) :: pairs_from pl l end.

Lemma pairs_from_lookup pl l p a : l !! p = Some a ->
  pairs_from pl l !! p = Some (map (pair a) (List.filter (pl a) (drop (S p) l))).
Proof. revert p. induction l as [|b l IH]; intros [|p] H; simpl in *; [done|done|by injection H as ->|by apply IH]. Qed.
Lemma pairs_from_length pl l : length (pairs_from pl l) = length l.
Proof. induction l; simpl; auto. Qed.
Lemma pairs_from_in pl l a b : (a, b) ∈ concat (pairs_from pl l) <-> exists p q, p < q /\ l !! p = Some a /\ l !! q = Some b /\ pl a b = true.
Proof.
  induction l as [|c l IH]; simpl.
  - split; [intros H; by apply elem_of_nil in H|]. by intros (p & q & _ & H & _).
  - rewrite elem_of_app, IH. split.
    + intros [H|(p & q & ? & ? & ? & ?)]; [|exists (S p), (S q); split; [lia|done]].
      apply elem_of_list_In, in_map_iff in H as (x & E & Hx). injection E as <- <-. apply List.filter_In in Hx as [Hx Hpl].
      apply elem_of_list_In, elem_of_list_lookup in Hx as [q Hq]. exists 0, (S q). split; [lia|done].
    + intros ([|p] & [|q] & Hpq & Hp & Hq & Hpl); [lia| |lia|right; exists p, q; split; [lia|done]].
      left. injection Hp as ->. apply elem_of_list_In, in_map_iff. exists b. split; [done|]. apply List.filter_In. split; [|done].
      apply elem_of_list_In. by apply (elem_of_list_lookup_2 _ q).
Qed.
Lemma pairs_from_nodup pl l : NoDup l -> NoDup (concat (pairs_from pl l)).
Proof.
  induction l as [|c l IH]; intros H; simpl; [constructor|]. apply NoDup_cons in H as [Hc H]. apply NoDup_app. split; [|split; [|by apply IH]].
  - apply NoDup_ListNoDup. apply FinFun.Injective_map_NoDup; [intros x y E; by injection E|]. apply List.NoDup_filter. by apply NoDup_ListNoDup.
  - intros [x y] Hx Hy. apply elem_of_list_In, in_map_iff in Hx as (x' & E & _). injection E as <- <-.
    apply pairs_from_in in Hy as (p & q & _ & Hp & _). apply Hc. by apply (elem_of_list_lookup_2 _ p).
Qed.

(** [outs] lists what each launched thread passes to the callback (threads share nothing, so the order between
    threads is irrelevant).  Over all threads no ordered pair repeats, no value is paired with itself, only
    matching pairs occur, and of (a,b), (b,a) exactly one occurs. *)
Theorem C09_half_traversal_pairs_once :
  forall V (le : V -> V -> Prop) vol perm T pl pv, Index le vol perm T -> NoDup perm ->
  (forall a, PruneSafe le vol (pl a) (pv a)) -> (forall a b, pl a b = pl b a) ->
  exists outs, Forall2 (fun i out => half_thread T pl pv i = Ok out) (half_threads T) outs /\
    NoDup (concat outs) /\
    (forall a b, (a, b) ∈ concat outs -> a <> b /\ a ∈ perm /\ b ∈ perm /\ pl a b = true /\ (b, a) ∉ concat outs) /\
    (forall a b, a ∈ perm -> b ∈ perm -> a <> b -> pl a b = true -> (a, b) ∈ concat outs \/ (b, a) ∈ concat outs).
Proof.
  intros V le vol perm T pl pv HI ND HP Hsym.
  assert (exists outs, Forall2 (fun i out => half_thread T pl pv i = Ok out) (half_threads T) outs /\
    (forall a b, (a, b) ∈ concat outs <-> (a, b) ∈ concat (pairs_from pl perm)) /\ NoDup (concat outs)) as (outs & HF & Hin & HND).
  { assert (t_size T = length perm) as Hsz by (destruct HI as [(_ & ? & _)|[_ VT]]; [done|apply VT]).
    unfold half_threads. rewrite Hsz. destruct (Nat.leb_spec (length perm) 1) as [Hle|Hgt].
    - exists []. split; [constructor|]. destruct perm as [|a [|]]; simpl in *; [..|lia]; (split; [done|constructor]).
    - exists (pairs_from pl perm). split; [|split; [done|by apply pairs_from_nodup]].
      apply Forall2_same_length_lookup. split; [by rewrite seq_length, pairs_from_length|].
      intros i x y Hx Hy. apply lookup_seq in Hx as [-> Hi]. simpl in *.
      destruct (lookup_lt_is_Some_2 perm i Hi) as [a Ha]. rewrite (pairs_from_lookup _ _ _ _ Ha) in Hy. injection Hy as <-.
      apply (half_thread_correct le vol perm T pl pv HI HP i a); [lia|done]. }
  exists outs. split; [done|]. split; [done|]. split.
  - intros a b H. apply Hin in H. apply pairs_from_in in H as (p & q & Hpq & Hp & Hq & Hpl).
    split; [intros ->; pose proof (NoDup_lookup _ _ _ _ ND Hp Hq); lia|].
    split; [by apply (elem_of_list_lookup_2 _ p)|]. split; [by apply (elem_of_list_lookup_2 _ q)|]. split; [done|].
    intros H. apply Hin, pairs_from_in in H as (p' & q' & Hpq' & Hp' & Hq' & _).
    pose proof (NoDup_lookup _ _ _ _ ND Hp Hq'). pose proof (NoDup_lookup _ _ _ _ ND Hq Hp'). lia.
  - intros a b Ha Hb Hne Hpl. apply elem_of_list_lookup in Ha as [p Hp]. apply elem_of_list_lookup in Hb as [q Hq].
    destruct (Nat.lt_total p q) as [|[->|]]; [left|congruence|right]; apply Hin, pairs_from_in; [by exists p, q|].
    exists q, p. split; [done|]. split; [done|]. split; [done|]. by rewrite Hsym.
Qed.
Print Assumptions C09_half_traversal_pairs_once.

(** ** C05: nearest queries *)
Theorem C05_nearest_k_closest :
  forall V D (le : V -> V -> Prop) vol perm T ltb (zero inf : D) dl dv k cap,
  Index le vol perm T -> StrictWeak ltb -> DistSafe le vol ltb dl dv -> ltb zero inf = true -> 1 <= k ->
  nearest_query T ltb zero inf dl dv k cap = Overflow \/
  exists out, nearest_query T ltb zero inf dl dv k cap = Ok out /\
    (2 <= length perm -> KNearest ltb inf dl k perm out) /\ (length perm <= 1 -> out = perm).
Proof.
  intros V D le vol perm T ltb zero inf dl dv k cap HI SW DS Hz Hk. destruct HI as [(HL & HS & HV)|(HL & VT)].
  - right. exists perm. unfold nearest_query. destruct (Nat.ltb_spec k 1); [lia|]. rewrite HS.
    destruct perm as [|o [|]]; simpl in *; [split; [done|split; [lia|done]]| |lia].
    rewrite (HV 0). simpl. split; [done|]. split; [lia|done].
  - destruct (nearest_query_correct le vol perm T VT HL ltb zero inf dl dv k cap SW DS Hk Hz) as [?|(out & E & HK)]; [by left|].
    right. exists out. split; [done|]. split; [done|lia].
Qed.
Print Assumptions C05_nearest_k_closest.

(** ** C06: the 64-entry stack *)
(** No overflow with pairwise distinct codes. *)
Theorem C06_distinct_codes_partial :
  forall V D (le : V -> V -> Prop) join bot vol codes perm T ltb (zero inf : D) dl dv k,
  JoinSemi le join bot -> length perm = length codes -> (Z.of_nat (length codes) <= 2 ^ 63)%Z ->
  SortedCodes 64 codes -> NoDup codes -> built join bot vol 64 codes perm T ->
  nearest_query T ltb zero inf dl dv k 64 <> Overflow.
Proof.
  intros V D le join bot vol codes perm T ltb zero inf dl dv k JS Hp Hmax HS HND HB.
  destruct perm as [|a [|b perm]].
  - simpl in HB. subst T. unfold nearest_query. simpl. by destruct (k <? 1).
  - simpl in HB. subst T. unfold nearest_query. simpl. by destruct (k <? 1).
  - destruct HB as (ts & s & He & HD & HT). assert (2 <= length codes) as Hn by (rewrite <- Hp; simpl; lia).
    apply (nearest_query_no_overflow T ltb dl dv k 64 63); [lia|].
    pose proof (construction_height le join bot vol (a :: b :: perm) 64 codes (length codes - 1) JS ltac:(lia) ltac:(lia) ltac:(lia) ltac:(lia) ltac:(lia) HS ts s T He HD HT
      63 63 ltac:(lia) ltac:(lia) ltac:(lia) (distinct_lev codes (length codes - 1) 63 ltac:(lia) HND ltac:(lia))) as H. exact H.
Qed.
Print Assumptions C06_distinct_codes_partial.

(** No overflow with 32-bit codes whose top bit is clear, duplicates allowed. *)
Theorem C06_32bit_codes_partial :
  forall V D (le : V -> V -> Prop) join bot vol codes perm T ltb (zero inf : D) dl dv k,
  JoinSemi le join bot -> length perm = length codes -> (Z.of_nat (length codes) <= 2 ^ 31)%Z ->
  SortedCodes 32 codes -> built join bot vol 32 codes perm T ->
  nearest_query T ltb zero inf dl dv k 64 <> Overflow.
Proof.
  intros V D le join bot vol codes perm T ltb zero inf dl dv k JS Hp Hmax HS HB.
  destruct perm as [|a [|b perm]].
  - simpl in HB. subst T. unfold nearest_query. simpl. by destruct (k <? 1).
  - simpl in HB. subst T. unfold nearest_query. simpl. by destruct (k <? 1).
  - destruct HB as (ts & s & He & HD & HT). assert (2 <= length codes) as Hn by (rewrite <- Hp; simpl; lia).
    apply (nearest_query_no_overflow T ltb dl dv k 64 62); [lia|].
    pose proof (construction_height le join bot vol (a :: b :: perm) 32 codes (length codes - 1) JS ltac:(lia) ltac:(lia) ltac:(lia) ltac:(lia) ltac:(lia) HS ts s T He HD HT
      31 0 ltac:(lia) ltac:(lia) ltac:(lia)) as H. apply H.
    intros j Hj. destruct HS as [H1 H2]. apply (lev_bounds 32 codes (length codes - 1)); auto; lia.
Qed.
Print Assumptions C06_32bit_codes_partial.

Lemma height_size {V} (le : V -> V -> Prop) vol perm T : ValidTree le vol perm T ->
  forall d i l r rp, r - l < d -> Covers T i l r rp -> HeightLe T i (r - l).
Proof.
  intros VT. induction d as [|d IH]; intros i l r rp Hd HC; [lia|].
  destruct (isLeaf T i) eqn:HL; [by constructor|].
  destruct (node_case le vol perm T VT i l r rp HC HL) as (s & c1 & c2 & v & Hs & E1 & E2 & _ & _ & _ & C1 & C2).
  replace (r - l) with (S (r - l - 1)) by lia. apply (hl_node T i _ c1 c2 HL E1 E2).
  - apply (HeightLe_mono T c1 (s - l)); [|lia]. by apply (IH c1 l s (Some c2) ltac:(lia)).
  - apply (HeightLe_mono T c2 (r - S s)); [|lia]. by apply (IH c2 (S s) r rp ltac:(lia)).
Qed.

(** No overflow with at most 65 values, whatever the codes. *)
Theorem C06_small_partial :
  forall V D (le : V -> V -> Prop) vol perm T ltb (zero inf : D) dl dv k,
  Index le vol perm T -> length perm <= 65 -> nearest_query T ltb zero inf dl dv k 64 <> Overflow.
Proof.
  intros V D le vol perm T ltb zero inf dl dv k [(HL & HS & HV)|(HL & VT)] Hn.
  - unfold nearest_query. destruct (k <? 1); [done|]. rewrite HS. destruct perm as [|a [|]]; simpl in *; [done| |lia]. by destruct (getValue T 0).
  - apply (nearest_query_no_overflow T ltb dl dv k 64 (length perm - 1 - 0)); [lia|].
    apply (height_size le vol perm T VT (length perm) _ 0 (length perm - 1) None); [lia|]. apply VT.
Qed.
Print Assumptions C06_small_partial.

(** ** C07, C08: ordered queries *)
(** The answer is right except that one more value, at infinite distance, may be reported last; pushes stay
    inside the buffer when there are at most [cap] values. *)
Theorem C07_ordered_partial :
  forall V D St (le : V -> V -> Prop) vol perm T ltb (inf : D) dl dv cap (cb : St -> nat -> St * bool) isinf st,
  Index le vol perm T -> StrictWeak ltb -> DistSafe le vol ltb dl dv -> DistMono le ltb dv ->
  (forall d, isinf d = negb (ltb d inf)) ->
  (ordered_query T ltb inf dl dv cap cb isinf st = Overflow /\ cap < length perm) \/
  exists F X calls rest st' e, ordered_query T ltb inf dl dv cap cb isinf st = Ok st' /\
    OrderedAnswer ltb inf dl perm F X /\ F ++ X = calls ++ rest /\ Visits cb st calls st' e /\ (e = false -> rest = []).
Proof. intros V D St le vol perm T ltb inf dl dv cap cb isinf st. apply ordered_query_correct. Qed.
Print Assumptions C07_ordered_partial.

Theorem C08_small_partial :
  forall V D St (le : V -> V -> Prop) vol perm T ltb (inf : D) dl dv (cb : St -> nat -> St * bool) isinf st,
  Index le vol perm T -> StrictWeak ltb -> DistSafe le vol ltb dl dv -> DistMono le ltb dv ->
  (forall d, isinf d = negb (ltb d inf)) -> length perm <= 64 ->
  ordered_query T ltb inf dl dv 64 cb isinf st <> Overflow.
Proof.
  intros V D St le vol perm T ltb inf dl dv cb isinf st HI SW DS DM Hinf Hn.
  destruct (ordered_query_correct le vol perm T ltb inf dl dv 64 cb isinf st HI SW DS DM Hinf) as [[_ H]|(F & X & calls & rest & st' & e & -> & _)]; [lia|done].
Qed.
Print Assumptions C08_small_partial.

(** ** Witnesses *)
(** Run the threads one after the other, each until it is done. *)
Fixpoint run_seq {V} (join : V -> V -> V) bot vol perm m delta (fuel : nat) (s : state V) (ts : list nat) : option (state V) :=
  match fuel, ts with
  | _, [] => Some s
  | O, _ => None
  | S fuel, t :: ts' => match st_pcs s !! t with
                        | Some PDone => run_seq join bot vol perm m delta fuel s ts'
                        | _ => s' ← step join bot vol perm m delta s t; run_seq join bot vol perm m delta fuel s' ts
                        end
  end.

Lemma run_exec {V} (join : V -> V -> V) bot vol perm m delta fuel : forall s ts s',
  run_seq join bot vol perm m delta fuel s ts = Some s' -> exists ts', exec join bot vol perm m delta s ts' s'.
Proof.
  induction fuel as [|fuel IH]; intros s ts s' H; (destruct ts as [|t ts]; simpl in H; [injection H as ->; exists []; constructor|]); [done|].
  assert ((s1 ← step join bot vol perm m delta s t; run_seq join bot vol perm m delta fuel s1 (t :: ts)) = Some s' ->
          exists ts', exec join bot vol perm m delta s ts' s') as Hs.
  { intros H1. destruct (step join bot vol perm m delta s t) as [s1|] eqn:E; [|done]. simpl in H1.
    destruct (IH _ _ _ H1) as [ts' He]. exists (t :: ts'). by econstructor. }
  destruct (st_pcs s !! t) as [[]|]; auto. by eapply IH.
Qed.

Definition build_seq {V} (join : V -> V -> V) bot vol (w : Z) (codes : list Z) (perm : list nat) : option (tree V) :=
  let m := length codes - 1 in
  s ← run_seq join bot vol perm m (delta_code w codes m) (10 * length codes) (init_state m) (seq 0 (length codes));
  if forallb is_done (st_pcs s) then tree_of m s else None.

Lemma build_seq_built {V} (join : V -> V -> V) bot vol w codes perm T :
  2 <= length perm -> build_seq join bot vol w codes perm = Some T -> built join bot vol w codes perm T.
Proof.
  intros Hn H. unfold build_seq in H.
  destruct (run_seq _ _ _ _ _ _ _ _ _) as [s|] eqn:E; [|done]. simpl in H. destruct (forallb is_done (st_pcs s)) eqn:Ed; [|done].
  destruct perm as [|a [|b perm]]; [simpl in Hn; lia..|]. unfold built.
  apply run_exec in E as [ts He]. exists ts, s. split; [done|]. split; [|done].
  intros t p Hp. rewrite forallb_forall in Ed. assert (is_done p = true) as Hd by (apply Ed; apply elem_of_list_In; by apply (elem_of_list_lookup_2 _ t)).
  by destruct p.
Qed.

Definition sorted_codesb (w : Z) (codes : list Z) : bool :=
  forallb (fun a => (0 <=? a) && (a <? 2 ^ (w - 1)))%Z codes &&
  forallb (fun p => (fst p <=? snd p)%Z) (zip codes (tail codes)).
Lemma sorted_codesb_ok w codes : sorted_codesb w codes = true -> SortedCodes w codes.
Proof.
  unfold sorted_codesb. rewrite andb_true_iff, !forallb_forall. intros [H1 H2]. split.
  - intros i a b Ha Hb. specialize (H2 (a, b)). apply Z.leb_le. apply H2. apply elem_of_list_In.
    apply (elem_of_list_lookup_2 _ i). apply lookup_zip_with_Some. exists a, b. split; [done|]. split; [done|]. by destruct codes.
  - intros i a Ha. specialize (H1 a). apply elem_of_list_lookup_2, elem_of_list_In in Ha. specialize (H1 Ha).
    apply andb_true_iff in H1 as [? ?]. lia.
Qed.

(** C06 is false for the default 64-bit codes: 130 points in the unit cube (coordinates scaled by 2^21): the origin
    four times, and every point with one coordinate 2^j / 2^21 (j < 20) or 1 and the others zero, twice each.  A
    query at the origin with k = 130 pushes a 65th entry. *)
Definition deep_points : list (list Z) :=
  replicate 4 [0; 0; 0]%Z ++
  concat (map (fun j => let c := if j =? 20 then (2 ^ 21)%Z else (2 ^ Z.of_nat j)%Z in
                        [[0; 0; c]; [0; 0; c]; [0; c; 0]; [0; c; 0]; [c; 0; 0]; [c; 0; 0]]%Z) (seq 0 21)).
Definition code_of (p : list Z) : Z := code64 (fun x => x) 3 (map (fun c => c # 2 ^ 21)%Q p).
Definition vol_of (pts : list (list Z)) (o : nat) : zbox :=
  match pts !! o with Some [x; y; z] => pt3 x y z | _ => None end.

Definition is_overflow {A} (r : res A) : bool := match r with Overflow => true | _ => false end.
Definition deep_check : bool :=
  let codes := map code_of deep_points in
  sorted_codesb 64 codes &&
  match build_seq zjoin None (vol_of deep_points) 64 codes (seq 0 130) with
  | Some T => is_overflow (nearest_query T Z.ltb 0%Z zbig (fun o => zdist (0, 0, 0)%Z (vol_of deep_points o)) (zdist (0, 0, 0)%Z) 130 64)
  | None => false
  end.

Theorem C06_refuted : exists pts : list (list Z),
  length pts = 130 /\
  (forall p, p ∈ pts -> length p = 3 /\ forall c, c ∈ p -> (0 <= c <= 2 ^ 21)%Z) /\
  let codes := map code_of pts in
  SortedCodes 64 codes /\
  exists T, built zjoin None (vol_of pts) 64 codes (seq 0 130) T /\
    nearest_query T Z.ltb 0%Z zbig (fun o => zdist (0, 0, 0)%Z (vol_of pts o)) (zdist (0, 0, 0)%Z) 130 64 = Overflow.
Proof.
  exists deep_points. split; [vm_compute; reflexivity|]. split.
  { assert (forallb (fun p => (length p =? 3) && forallb (fun c => (0 <=? c) && (c <=? 2 ^ 21))%Z p) deep_points = true) as H by (vm_compute; reflexivity).
    rewrite forallb_forall in H. intros p Hp. apply elem_of_list_In, H, andb_true_iff in Hp as [H1 H2]. split; [by apply Nat.eqb_eq|].
    rewrite forallb_forall in H2. intros c Hc. apply elem_of_list_In, H2, andb_true_iff in Hc as [H3 H4]. lia. }
  cbv zeta. assert (deep_check = true) as H by (vm_compute; reflexivity).
  unfold deep_check in H. apply andb_true_iff in H as [H1 H2]. split; [by apply sorted_codesb_ok|].
  destruct (build_seq _ _ _ _ _ _) as [T|] eqn:E; [|discriminate H2]. exists T. split.
  - apply build_seq_built; [rewrite seq_length; lia|exact E].
  - destruct (nearest_query _ _ _ _ _ _ _ _); try discriminate H2. reflexivity.
Qed.
Print Assumptions C06_refuted.

(** A ray from the origin along +x: distance to a box (all boxes below lie in the half space x >= 0). *)
Definition ray_dist (b : zbox) : Z :=
  match b with
  | None => zbig
  | Some (x, y, z) =>
      if ((fst y <=? 0) && (0 <=? snd y) && (fst z <=? 0) && (0 <=? snd z) && (0 <=? snd x))%Z then Z.max 0 (fst x) else zbig
  end.
Definition collect (out : list nat) (v : nat) : list nat * bool := (out ++ [v], false).

Lemma Zltb_StrictWeak : StrictWeak Z.ltb.
Proof. constructor; intros; lia. Qed.

(** C08 is false: 132 boxes with a common centre, 66 of them hit by the ray at distance 20, the others long and
    missed; coordinates scaled by 2. *)
Definition ray_boxes (o : nat) : zbox :=
  if Nat.even o then Some ((2, 38), (1, 2), (0, 0))%Z else Some ((20, 20), (-2, 5), (0, 0))%Z.
Definition ray_check : bool :=
  let codes := replicate 132 (code64 (fun x => x) 2 [1 # 2; 1 # 2]%Q) in
  sorted_codesb 64 codes &&
  match build_seq zjoin None ray_boxes 64 codes (seq 0 132) with
  | Some T => is_overflow (ordered_query T Z.ltb zbig (fun o => ray_dist (ray_boxes o)) ray_dist 64 collect (fun d => negb (d <? zbig)%Z) [])
  | None => false
  end.

Theorem C08_refuted : exists n codes,
  n = 132 /\ codes = replicate n (code64 (fun x => x) 2 [1 # 2; 1 # 2]%Q) /\ SortedCodes 64 codes /\
  exists T, built zjoin None ray_boxes 64 codes (seq 0 n) T /\
    ordered_query T Z.ltb zbig (fun o => ray_dist (ray_boxes o)) ray_dist 64 collect (fun d => negb (d <? zbig)%Z) [] = Overflow.
Proof.
  exists 132, (replicate 132 (code64 (fun x => x) 2 [1 # 2; 1 # 2]%Q)). split; [done|]. split; [done|].
  assert (ray_check = true) as H by (vm_compute; reflexivity).
  unfold ray_check in H. apply andb_true_iff in H as [H1 H2]. split; [by apply sorted_codesb_ok|].
  destruct (build_seq _ _ _ _ _ _) as [T|] eqn:E; [|discriminate H2]. exists T. split.
  - apply build_seq_built; [rewrite seq_length; lia|exact E].
  - destruct (ordered_query _ _ _ _ _ _ _ _ _); try discriminate H2. reflexivity.
Qed.
Print Assumptions C08_refuted.

(** C07 is false: two boxes, both missed by the ray, and yet one of them is reported. *)
Definition miss_boxes (o : nat) : zbox :=
  if o =? 0 then Some ((1, 2), (1, 2), (0, 0))%Z else Some ((3, 4), (-2, -1), (0, 0))%Z.
Definition miss_tree : tree zbox :=
  {| t_size := 2;
     t_leaves := [{| l_rope := Some 1; l_value := 0 |}; {| l_rope := None; l_value := 1 |}];
     t_nodes := [{| n_left := 0; n_rope := None; n_vol := Some ((1, 4), (-2, 2), (0, 0))%Z |}] |}.

Theorem C07_refuted : exists T, built zjoin None miss_boxes 64 [0; 5]%Z [0; 1] T /\ SortedCodes 64 [0; 5]%Z /\
  (forall o, o < 2 -> ray_dist (miss_boxes o) = zbig) /\
  ordered_query T Z.ltb zbig (fun o => ray_dist (miss_boxes o)) ray_dist 64 collect (fun d => negb (d <? zbig)%Z) [] = Ok [1].
Proof.
  exists miss_tree. split; [|split; [|split]].
  - apply build_seq_built; [simpl; lia|]. vm_compute. reflexivity.
  - apply sorted_codesb_ok. vm_compute. reflexivity.
  - intros [|[|o]] Ho; [reflexivity|reflexivity|lia].
  - vm_compute. reflexivity.
Qed.
Print Assumptions C07_refuted.

(** ** C52: per-query heap buffers *)
Theorem C52_refuted : exists ks : list Z, let offs := buffer_offsets 0 ks in
  exists o0 e0 o2 e2, offs !! 0 = Some o0 /\ offs !! 1 = Some e0 /\ offs !! 2 = Some o2 /\ offs !! 3 = Some e2 /\
    (o0 < e0)%Z /\ o0 = o2 /\ e0 = e2.
Proof. exists [3; -3; 3]%Z. exists 0%Z, 3%Z, 0%Z, 3%Z. vm_compute. repeat split; reflexivity. Qed.
Print Assumptions C52_refuted.

Lemma buffer_offsets_bounds acc ks : Forall (fun k => 0 <= k)%Z ks ->
  forall i o, buffer_offsets acc ks !! i = Some o -> (acc <= o <= acc + foldr Z.add 0 ks)%Z.
Proof.
  intros HF. revert acc. induction HF as [|k ks Hk HF IH]; intros acc i o H.
  - destruct i as [|i]; simpl in H; [injection H as <-; simpl; lia|done].
  - assert (0 <= foldr Z.add 0 ks)%Z by (clear -HF; induction HF; simpl; lia).
    destruct i as [|i]; simpl in H; [injection H as <-; simpl; lia|]. apply IH in H. simpl. lia.
Qed.

(** Non-negative k with a sum that fits [int]: the buffer of query i is exactly k_i entries, inside the
    allocation, after the buffers of all earlier queries; no intermediate sum overflows. *)
Theorem C52_nonnegative_partial : forall ks, Forall (fun k => 0 <= k)%Z ks -> (foldr Z.add 0 ks < 2 ^ 31)%Z ->
  let offs := buffer_offsets 0 ks in length offs = S (length ks) /\
  (forall i o, offs !! i = Some o -> 0 <= o < 2 ^ 31)%Z /\
  (exists total, last offs = Some total /\ forall i o, offs !! i = Some o -> (o <= total)%Z) /\
  (forall i k o e, ks !! i = Some k -> offs !! i = Some o -> offs !! S i = Some e -> e = (o + k)%Z) /\
  (forall i j e o, i < j -> offs !! S i = Some e -> offs !! j = Some o -> (e <= o)%Z).
Proof.
  intros ks HF Hsum offs.
  assert (forall acc, length (buffer_offsets acc ks) = S (length ks)) as Hlen by (clear; induction ks; intros; simpl; auto).
  assert (forall acc, last (buffer_offsets acc ks) = Some (acc + foldr Z.add 0 ks)%Z) as Hlast.
  { clear. induction ks as [|k ks IH]; intros acc; cbn [buffer_offsets foldr]; [simpl; f_equal; lia|].
    rewrite last_cons, IH. f_equal. lia. }
  split; [apply Hlen|]. split; [|split; [|split]].
  - intros i o Ho. pose proof (buffer_offsets_bounds 0 ks HF i o Ho). lia.
  - exists (0 + foldr Z.add 0 ks)%Z. split; [apply Hlast|]. intros i o Ho. pose proof (buffer_offsets_bounds 0 ks HF i o Ho). lia.
  - clear. unfold offs. generalize 0%Z. induction ks as [|k ks IH]; intros acc [|i] k' o e Hk Ho He; simpl in *; try done.
    + injection Hk as <-. injection Ho as <-. destruct ks; simpl in He; by injection He as <-.
    + by apply (IH (acc + k)%Z i k' o e).
  - clear -HF. unfold offs. generalize 0%Z. induction HF as [|k ks Hk HF IH]; intros acc i j e o Hij He Ho; simpl in *; [done|].
    destruct j as [|j]; [lia|]. simpl in Ho. destruct i as [|i].
    + assert (e = acc + k)%Z as -> by (destruct ks; simpl in He; by injection He as <-).
      apply (buffer_offsets_bounds (acc + k) ks HF) in Ho. lia.
    + apply (IH (acc + k)%Z i j e o); [lia|done|done].
Qed.
Print Assumptions C52_nonnegative_partial.
Example C52_example : Forall (fun k => 0 <= k)%Z [3; 0; 2]%Z /\ buffer_offsets 0 [3; 0; 2]%Z = [0; 3; 3; 5]%Z.
Proof. split; [repeat constructor; lia|reflexivity]. Qed.

(** ** A concrete case meeting the hypotheses of all theorems above: six points on a line, two of them equal *)
Definition line_vol (o : nat) : zbox := pt3 (nth o [5; 1; 9; 1; 20; 14]%Z 0%Z) 0 0.
Definition line_perm : list nat := [1; 3; 0; 2; 5; 4].
Definition line_codes : list Z := [1; 1; 5; 9; 14; 20]%Z.
Definition line_tree : tree zbox :=
  default empty_tree (build_seq zjoin None line_vol 64 line_codes line_perm).

Example line_built : built zjoin None line_vol 64 line_codes line_perm line_tree.
Proof. apply build_seq_built; [simpl; lia|]. vm_compute. reflexivity. Qed.
Example line_codes_sorted : SortedCodes 64 line_codes.
Proof. apply sorted_codesb_ok. vm_compute. reflexivity. Qed.
Example line_index : Index zle line_vol line_perm line_tree.
Proof.
  apply (C01_index_over_any_number_of_values _ zle zjoin None line_vol 64 line_codes);
    [apply zbox_JoinSemi|lia|reflexivity|simpl; lia|apply line_codes_sorted|apply line_built].
Qed.
Lemma zdist_mono q u v : zle u v -> u <> None -> (zdist q v <= zdist q u)%Z.
Proof.
  destruct q as [[qx qy] qz]. destruct u as [[[x y] z]|], v as [[[x' y'] z']|]; cbn [zle]; try done. intros (H1 & H2 & H3) _. cbn [zdist].
  pose proof (sq_le _ _ (gap_mono qx _ _ H1)). pose proof (sq_le _ _ (gap_mono qy _ _ H2)). pose proof (sq_le _ _ (gap_mono qz _ _ H3)). lia.
Qed.
Example line_prune : PruneSafe zle line_vol (fun o => zdist (4, 0, 0)%Z (line_vol o) <=? 25)%Z (fun v => zdist (4, 0, 0)%Z v <=? 25)%Z.
Proof. intros o v Hle H. apply Z.leb_le in H. apply Z.leb_le. pose proof (zdist_mono (4, 0, 0)%Z _ _ Hle ltac:(discriminate)). lia. Qed.
Example line_dist : DistSafe zle line_vol Z.ltb (fun o => zdist (4, 0, 0)%Z (line_vol o)) (zdist (4, 0, 0)%Z).
Proof. intros o v Hle. apply Z.ltb_ge. apply zdist_mono; [exact Hle|discriminate]. Qed.

Example C03_example :
  spatial_query line_tree (fun o => zdist (4, 0, 0)%Z (line_vol o) <=? 25)%Z (fun v => zdist (4, 0, 0)%Z v <=? 25)%Z
    (fun out v => (out ++ [v], false)) [] = Ok [1; 3; 0; 2].
Proof. vm_compute. reflexivity. Qed.
Example C04_example : (* stop after the second call *)
  spatial_query line_tree (fun o => zdist (4, 0, 0)%Z (line_vol o) <=? 25)%Z (fun v => zdist (4, 0, 0)%Z v <=? 25)%Z
    (fun out v => (out ++ [v], length out =? 1)) [] = Ok [1; 3].
Proof. vm_compute. reflexivity. Qed.
Example C05_example : Z.ltb 0 zbig = true /\
  nearest_query line_tree Z.ltb 0%Z zbig (fun o => zdist (4, 0, 0)%Z (line_vol o)) (zdist (4, 0, 0)%Z) 3 64 = Ok [0; 1; 3].
Proof. split; [reflexivity|]. vm_compute. reflexivity. Qed.
Example C06_example : length line_perm <= 65 /\ NoDup (tail line_codes) /\ SortedCodes 32 line_codes.
Proof. split; [simpl; lia|]. split; [apply (bool_decide_unpack _); vm_compute; reflexivity|]. apply sorted_codesb_ok. vm_compute. reflexivity. Qed.
(** monotone distance that is also total on the empty box *)
Definition hit_dist (b : zbox) : Z := match b with None => zbig | Some (x, _, _) => if (snd x <? 4)%Z then zbig else (Z.max 0 (fst x - 4))%Z end.
Example line_ordered : DistMono zle Z.ltb (fun b => Z.min zbig (hit_dist b)) /\
  ordered_query line_tree Z.ltb zbig (fun o => Z.min zbig (hit_dist (line_vol o))) (fun b => Z.min zbig (hit_dist b)) 64 collect
     (fun d => negb (d <? zbig)%Z) [] = Ok [0; 2; 5; 4].
Proof.
  split; [|vm_compute; reflexivity]. intros u v Hle. apply Z.ltb_ge. unfold hit_dist, zle in *.
  assert (0 < zbig)%Z by (vm_compute; reflexivity). generalize dependent zbig. intros big Hbig.
  destruct u as [[[x y] z]|], v as [[[x' y'] z']|]; [|destruct Hle|lia|lia]. destruct Hle as ([H1 H2] & _).
  destruct (Z.ltb_spec (snd x) 4), (Z.ltb_spec (snd x') 4); lia.
Qed.
Example C09_example :
  (forall a, PruneSafe zle line_vol (fun o => zdist (nth a [5; 1; 9; 1; 20; 14]%Z 0%Z, 0, 0)%Z (line_vol o) <=? 16)%Z
                          (fun v => zdist (nth a [5; 1; 9; 1; 20; 14]%Z 0%Z, 0, 0)%Z v <=? 16)%Z) /\
  map (half_thread line_tree (fun a o => zdist (nth a [5; 1; 9; 1; 20; 14]%Z 0%Z, 0, 0)%Z (line_vol o) <=? 16)%Z
                          (fun a v => zdist (nth a [5; 1; 9; 1; 20; 14]%Z 0%Z, 0, 0)%Z v <=? 16)%Z) (half_threads line_tree)
  = [Ok [(1, 3); (1, 0)]; Ok [(3, 0)]; Ok [(0, 2)]; Ok []; Ok []; Ok []].
Proof.
  split; [|vm_compute; reflexivity]. intros a o v Hle H. apply Z.leb_le in H. apply Z.leb_le.
  pose proof (zdist_mono (nth a [5; 1; 9; 1; 20; 14]%Z 0%Z, 0, 0)%Z _ _ Hle ltac:(discriminate)). lia.
Qed.
