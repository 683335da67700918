(** C106: the times printed by the clustering benchmarks.  For a region entered once it is the time spent in it; for one
    entered several times only the first is reported, and for one never entered the benchmark aborts.  Both happen in the
    HDBSCAN benchmark. *)
From Verif Require Import Base TimerModel.
From Coq Require Import ZArith String.
Local Open Scope string_scope.
Local Open Scope list_scope.
Local Open Scope Z_scope.

(** The durations of the regions of that label, in the order of leaving them. *)
Fixpoint durations (label : string) (r : regions) : list Z :=
  match r with
  | Nothing => []
  | Next l a b i r' => durations label i ++ (if String.eqb l label then [b - a] else []) ++ durations label r'
  end.
(** The time spent in them. *)
Definition time_in (label : string) (r : regions) : Z := foldr Z.add 0 (durations label r).

Fixpoint finished (r : regions) : list (string * Z) :=
  match r with Nothing => [] | Next l a b i r' => finished i ++ (l, b - a) :: finished r' end.
Lemma on_events_app es es' s : on_events s (es ++ es') = match on_events s es with Some s' => on_events s' es' | None => None end.
Proof. revert s. induction es as [|e es IH]; intros s; simpl; [done|]. destruct (on_event s e); [apply IH|done]. Qed.
Lemma run_regions r : forall ts dt, on_events (Timers ts dt) (events r) = Some (Timers ts (dt ++ finished r)).
Proof.
  induction r as [|l a b i IHi r IHr]; intros ts dt; simpl; [by rewrite app_nil_r|].
  rewrite on_events_app. unfold push_region. simpl. rewrite IHi. simpl. rewrite IHr. by rewrite <- !app_assoc.
Qed.
Lemma find_app l ts ts' : find_time (ts ++ ts') l = match find_time ts l with Some d => Some d | None => find_time ts' l end.
Proof. induction ts as [|[k d] ts IH]; simpl; [done|]. by destruct (String.eqb k l). Qed.
Lemma find_finished l r : find_time (finished r) l = head (durations l r).
Proof.
  induction r as [|k a b i IHi r IHr]; simpl; [done|]. rewrite find_app. simpl. rewrite IHi, IHr.
  destruct (durations l i); simpl; [|done]. by destruct (String.eqb k l).
Qed.

(** The callbacks never meet an empty stack, and [get_time] returns the duration of the first region of the label that was
    left. *)
Theorem C106_first : forall r, exists s, on_events (Timers [] []) (events r) = Some s /\ current_timers s = [] /\
  forall label, get_time s label = head (durations label r).
Proof.
  intros r. exists (Timers [] (finished r)). rewrite run_regions. split; [done|]. split; [done|]. intros l. apply find_finished.
Qed.
(** So it is the time spent in the regions of the label if there is one of them. *)
Theorem C106_once : forall r s label, on_events (Timers [] []) (events r) = Some s -> List.length (durations label r) = 1%nat ->
  get_time s label = Some (time_in label r).
Proof.
  intros r s label Hs Hl. destruct (C106_first r) as (s'&E&_&H). rewrite Hs in E. injection E as <-. rewrite H. unfold time_in.
  destruct (durations label r) as [|d [|]]; simpl in *; try done. by rewrite Z.add_0_r.
Qed.

Lemma durations_sided label ds rest : durations label (sided_parents ds rest) =
  (if String.eqb "ArborX::MST::update_sided_parents" label then (fun p => p.2 - p.1) <$> ds else []) ++ durations label rest.
Proof.
  induction ds as [|[a b] ds IH].
  - simpl. by case_match.
  - cbn [sided_parents durations]. rewrite IH. case_match; reflexivity.
Qed.
(** What the HDBSCAN benchmark prints: it aborts if there is one iteration only, and otherwise prints the time of the sided
    parents for the second iteration. *)
Theorem C106_hdbscan : forall core t c d b v e ds,
  hdbscan_report core (hdbscan_regions core t c d b v e ds) =
  match ds with
  | [] => None
  | x :: _ => Some ([c.2 - c.1] ++ (if core then [d.2 - d.1] else []) ++ [b.2 - b.1; x.2 - x.1; v.2 - v.1; e.2 - e.1; t.2 - t.1])
  end.
Proof.
  intros core t c d b v e ds. unfold hdbscan_report.
  destruct (C106_first (hdbscan_regions core t c d b v e ds)) as (s&Hs&_&H). rewrite Hs.
  destruct core; unfold hdbscan_labels; simpl app; unfold all_times; rewrite !H; unfold hdbscan_regions; simpl durations; rewrite !durations_sided; simpl;
    destruct ds as [|x ds]; simpl; reflexivity.
Qed.
(** The times of the benchmark are not those spent: with two points there is one iteration and it aborts although regions of all
    the other labels were timed; with three or more iterations the time printed for the sided parents is too small. *)
Theorem C106_hdbscan_refuted : exists t c d b v e ds ts,
  hdbscan_report true (hdbscan_regions true t c d b v e []) = None /\
  hdbscan_report true (hdbscan_regions true t c d b v e ds) = Some ts /\
  nth 3 ts 0 < time_in "ArborX::MST::update_sided_parents" (hdbscan_regions true t c d b v e ds).
Proof.
  exists (0, 100), (1, 10), (11, 20), (21, 90), (22, 25), (80, 89), [(30, 40); (50, 55)], [9; 9; 69; 10; 3; 9; 100].
  split; [vm_compute; reflexivity|]. split; [vm_compute; reflexivity|]. vm_compute. reflexivity.
Qed.
(** A region entered once, inside and beside others. *)
Example C106_example :
  let r := Next "a" 0 10 (Next "b" 1 3 Nothing (Next "c" 4 9 Nothing Nothing)) (Next "b" 12 13 Nothing Nothing) in
  List.length (durations "c" r) = 1%nat /\ time_in "b" r = 3 /\
  exists s, on_events (Timers [] []) (events r) = Some s /\ get_time s "c" = Some 5 /\ get_time s "b" = Some 2 /\ get_time s "d" = None.
Proof. simpl. split; [done|]. split; [done|]. eexists. split; [reflexivity|]. vm_compute. done. Qed.
Print Assumptions C106_first.
Print Assumptions C106_once.
Print Assumptions C106_hdbscan.
Print Assumptions C106_hdbscan_refuted.
