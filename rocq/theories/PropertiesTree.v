(** C01, C02, C18: construction of the hierarchy (src/spatial/detail/ArborX_TreeConstruction.hpp). *)
From Verif Require Import TreeConstructionProof DeltaProof MortonFloatModel MortonProof PropertiesMorton.
Local Open Scope nat_scope.

Section Setup.
Context {V : Type} (join : V -> V -> V) (bot : V) (vol : nat -> V).
(** The kernel run on n values given by the permutation [perm] and sorted codes of width [w]. *)
Definition kernel_exec (w : Z) (codes : list Z) (perm : list nat) :=
  exec join bot vol perm (length codes - 1) (delta_code w codes (length codes - 1))
       (init_state (length codes - 1)).
Definition kernel_step (w : Z) (codes : list Z) (perm : list nat) :=
  step join bot vol perm (length codes - 1) (delta_code w codes (length codes - 1)).
End Setup.

(** Every interleaving of the n threads: no thread ever performs an undefined access or gets stuck, the
    kernel finishes within n(3n-1) atomic steps whatever the schedule, and when all threads are done
    the memory holds a valid tree. *)
Theorem C01_every_schedule_builds_valid_tree :
  forall V (le : V -> V -> Prop) join bot vol w codes perm,
  JoinSemi le join bot -> (2 <= w)%Z -> 2 <= length codes -> length perm = length codes ->
  (Z.of_nat (length codes) <= 2 ^ (w - 1))%Z -> SortedCodes w codes ->
  forall ts s, kernel_exec join bot vol w codes perm ts s ->
    length ts <= length codes * (3 * length codes - 1) /\
    (forall t p, st_pcs s !! t = Some p -> p <> PDone -> exists s', kernel_step join bot vol w codes perm s t = Some s') /\
    (all_done s -> exists T, tree_of (length codes - 1) s = Some T /\ ValidTree le vol perm T).
Proof.
  intros V le join bot vol w codes perm JS Hw Hn Hp Hmax [Hs Hr] ts s He.
  assert (GoodDelta (length codes - 1) (delta_code w codes (length codes - 1))) as GD.
  { apply delta_good; auto; lia. }
  split; [|split].
  - pose proof (construction_bounded le join bot JS vol perm (length codes - 1) ltac:(lia) ltac:(lia) _ GD ts s He) as Hb.
    replace (length codes - 1 + 1) with (length codes) in Hb by lia.
    replace (3 * (length codes - 1) + 2) with (3 * length codes - 1) in Hb by lia. done.
  - intros t p Hpc Hne.
    exact (construction_progress le join bot JS vol perm (length codes - 1) ltac:(lia) ltac:(lia) _ GD ts s t p He Hpc Hne).
  - intros HD. exact (construction_valid le join bot JS vol perm (length codes - 1) ltac:(lia) ltac:(lia) _ GD ts s He HD).
Qed.
Print Assumptions C01_every_schedule_builds_valid_tree.

(** Schedule independence. *)
Theorem C01_schedule_independent :
  forall V (le : V -> V -> Prop) join bot vol w codes perm,
  JoinSemi le join bot -> (2 <= w)%Z -> 2 <= length codes -> length perm = length codes ->
  (Z.of_nat (length codes) <= 2 ^ (w - 1))%Z -> SortedCodes w codes ->
  forall ts s ts' s' T T', kernel_exec join bot vol w codes perm ts s -> all_done s ->
    kernel_exec join bot vol w codes perm ts' s' -> all_done s' ->
    tree_of (length codes - 1) s = Some T -> tree_of (length codes - 1) s' = Some T' -> SameTree le T T'.
Proof.
  intros V le join bot vol w codes perm JS Hw Hn Hp Hmax [Hs Hr].
  exact (construction_same le join bot JS vol perm (length codes - 1) ltac:(lia) ltac:(lia) _
           (delta_good w codes (length codes - 1) Hw ltac:(lia) ltac:(lia) Hs Hr)).
Qed.
Print Assumptions C01_schedule_independent.

(** Each node is written exactly once: a write hits an uninitialised slot and no step changes an
    initialised one. *)
Theorem C01_nodes_initialised_once :
  forall V (le : V -> V -> Prop) join bot vol w codes perm,
  JoinSemi le join bot -> (2 <= w)%Z -> 2 <= length codes -> length perm = length codes ->
  (Z.of_nat (length codes) <= 2 ^ (w - 1))%Z -> SortedCodes w codes ->
  forall ts s t s', kernel_exec join bot vol w codes perm ts s -> kernel_step join bot vol w codes perm s t = Some s' ->
  (forall i x, st_leaves s !! i = Some (Some x) -> st_leaves s' !! i = Some (Some x)) /\
  (forall k x, st_nodes s !! k = Some (Some x) -> st_nodes s' !! k = Some (Some x)) /\
  (forall x lc, st_pcs s !! t = Some (PWrite x lc) -> exists k nd, st_nodes s !! k = Some None /\ st_nodes s' = <[k := Some nd]> (st_nodes s)) /\
  (st_pcs s !! t = Some PInit -> exists nd, st_leaves s !! t = Some None /\ st_leaves s' = <[t := Some nd]> (st_leaves s)).
Proof.
  intros V le join bot vol w codes perm JS Hw Hn Hp Hmax [Hs Hr].
  exact (construction_write_once le join bot JS vol perm (length codes - 1) ltac:(lia) ltac:(lia) _
           (delta_good w codes (length codes - 1) Hw ltac:(lia) ltac:(lia) Hs Hr)).
Qed.
Print Assumptions C01_nodes_initialised_once.

(** The root volume (what bounds() returns) is the hull of all values, for any schedule. *)
Theorem C02_bounds_is_hull :
  forall V (le : V -> V -> Prop) join bot vol w codes perm,
  JoinSemi le join bot -> (2 <= w)%Z -> 2 <= length codes -> perm ≡ₚ seq 0 (length codes) ->
  (Z.of_nat (length codes) <= 2 ^ (w - 1))%Z -> SortedCodes w codes ->
  forall ts s, kernel_exec join bot vol w codes perm ts s -> all_done s ->
  exists T v, tree_of (length codes - 1) s = Some T /\ getVolume T (getRoot T) = Some v /\
    (forall o, o < length codes -> le (vol o) v) /\
    (forall u, (forall o, o < length codes -> le (vol o) u) -> le v u).
Proof.
  intros V le join bot vol w codes perm JS Hw Hn HP Hmax HS ts s He HD.
  assert (length perm = length codes) as Hp by (rewrite HP; apply seq_length).
  destruct (C01_every_schedule_builds_valid_tree V le join bot vol w codes perm JS Hw Hn Hp Hmax HS ts s He) as (_ & _ & H).
  destruct (H HD) as (T & HT & VT). exists T.
  destruct (vt_hull _ _ _ _ VT _ _ _ _ (vt_root _ _ _ _ VT)) as (v & Hv & H1 & H2); [lia|].
  exists v. split; [done|]. split; [done|]. split.
  - intros o Ho. assert (o ∈ perm) as Hin by (rewrite HP; apply elem_of_seq; lia).
    apply elem_of_list_lookup in Hin as [i Hi]. apply (H1 i o); [|done]. apply lookup_lt_Some in Hi. lia.
  - intros u Hu. apply H2. intros i o _ Hi. apply Hu.
    assert (o ∈ perm) as Hin by (by apply (elem_of_list_lookup_2 _ i)). rewrite HP in Hin. apply elem_of_seq in Hin. lia.
Qed.
Print Assumptions C02_bounds_is_hull.

(** Every internal node's volume is the hull of exactly the leaves below it, for any schedule. *)
Theorem C02_every_node_is_hull :
  forall V (le : V -> V -> Prop) join bot vol w codes perm,
  JoinSemi le join bot -> (2 <= w)%Z -> 2 <= length codes -> length perm = length codes ->
  (Z.of_nat (length codes) <= 2 ^ (w - 1))%Z -> SortedCodes w codes ->
  forall ts s T, kernel_exec join bot vol w codes perm ts s -> all_done s -> tree_of (length codes - 1) s = Some T ->
  forall i l r rp, Covers T i l r rp -> l < r -> exists v, getVolume T i = Some v /\ IsHull le vol perm v l r.
Proof.
  intros V le join bot vol w codes perm JS Hw Hn Hp Hmax HS ts s T He HD HT.
  destruct (C01_every_schedule_builds_valid_tree V le join bot vol w codes perm JS Hw Hn Hp Hmax HS ts s He) as (_ & _ & H).
  destruct (H HD) as (T' & HT' & VT). rewrite HT in HT'. injection HT' as <-. apply VT.
Qed.
Print Assumptions C02_every_node_is_hull.

(** Concrete case: six values with duplicate codes, 1-D intervals as volumes, reversed round-robin schedule. *)
Definition itv_join (a b : Z * Z) : Z * Z := (Z.min (fst a) (fst b), Z.max (snd a) (snd b)).
Definition itv_le (a b : Z * Z) : Prop := (fst b <= fst a /\ snd a <= snd b)%Z \/ (snd a = -1000 /\ fst a = 1000)%Z.
Definition ex_codes : list Z := [1; 1; 1; 6; 6; 9]%Z.
Definition ex_perm : list nat := [2; 0; 5; 1; 4; 3].
Definition ex_vol (o : nat) : Z * Z := (Z.of_nat o, Z.of_nat o + 2)%Z.
Definition ex_bot : Z * Z := (1000, -1000)%Z.

(** intervals inside [-1000, 1000], ordered by inclusion *)
Example ex_hyps : 2 <= length ex_codes /\ length ex_perm = length ex_codes /\ SortedCodes 64 ex_codes /\
  JoinSemi (fun a b : nat => a <= b) Nat.max 0 /\ ex_perm ≡ₚ seq 0 6.
Proof.
  split; [simpl; lia|]. split; [done|]. split; [|split].
  - constructor.
    + intros i a b. do 6 (destruct i as [|i]; [intros H1 H2; vm_compute in H1, H2; try done; injection H1 as <-; injection H2 as <-; lia|]).
      intros H. by vm_compute in H; destruct i.
    + intros i a. do 6 (destruct i as [|i]; [intros H1; vm_compute in H1; injection H1 as <-; lia|]).
      intros H. by vm_compute in H; destruct i.
  - constructor; intros; lia.
  - apply (bool_decide_unpack _). vm_compute. reflexivity.
Qed.
Example ex_run : match run itv_join ex_bot ex_vol ex_perm 5 (delta_code 64 ex_codes 5) (init_state 5)
                        (concat (replicate 20 [5;3;4;1;0;2])) with
                 | Some s => forallb is_done (st_pcs s) = true /\ n_vol <$> (mjoin (head (st_nodes s))) = Some (0, 7)%Z
                 | None => False end.
Proof. vm_compute. split; reflexivity. Qed.

(** C18: codes with the top bit set.  First witness: the default Morton64 curve in one dimension.  The two
    ends of the scene scale to 0.0 and 1.0; their codes are 0 and 2^63, and the very first step of thread 0
    after its initialisation accesses _ranges(-1). *)
Theorem C18_morton64_1d_refuted : exists p0 p1 : spec_float,
  SFleb p0 p1 = true /\ p1 = binary_normalize 53 1024 1 0 false /\
  let codes := Z.of_N <$> [morton64_double 1 [p0]; morton64_double 1 [p1]] in
  exists s, kernel_exec (V:=unit) (fun _ _ => tt) tt (fun _ => tt) 64 codes [0; 1] [0] s /\
    (exists x, st_pcs s !! 0 = Some (PLoop x)) /\
    kernel_step (V:=unit) (fun _ _ => tt) tt (fun _ => tt) 64 codes [0; 1] s 0 = None.
Proof.
  exists (S754_zero false), (binary_normalize 53 1024 1 0 false).
  split; [vm_compute; reflexivity|]. split; [reflexivity|].
  cbv zeta. eexists. split; [|split].
  - econstructor; [|constructor]. vm_compute. reflexivity.
  - eexists. vm_compute. reflexivity.
  - vm_compute. reflexivity.
Qed.
Print Assumptions C18_morton64_1d_refuted.

(** Second witness: Morton32 in 2-D.  Construction finishes, but an internal node is never initialised and
    value 2 is reachable from no node. *)
Theorem C18_morton32_2d_refuted : exists pts : list (list spec_float),
  length pts = 3 /\
  let codes := (fun p => Z.of_N (morton32_float 2 p)) <$> pts in
  (forall i a b, codes !! i = Some a -> codes !! S i = Some b -> (a <= b)%Z) /\
  exists ts s, kernel_exec (V:=unit) (fun _ _ => tt) tt (fun _ => tt) 32 codes [0; 1; 2] ts s /\
    all_done s /\ st_nodes s !! 1 = Some None /\
    (forall k nd, st_nodes s !! k = Some (Some nd) -> n_left nd <> 2 /\ n_rope nd <> Some 2) /\
    (forall k nd, st_leaves s !! k = Some (Some nd) -> l_rope nd <> Some 2).
Proof.
  exists [[S754_zero false; S754_zero false];
          [binary_normalize 24 128 65535 (-17) false; binary_normalize 24 128 1 0 false];
          [binary_normalize 24 128 1 0 false; binary_normalize 24 128 1 0 false]].
  split; [reflexivity|]. cbv zeta.
  match goal with |- context [kernel_exec _ _ _ 32 ?cs] =>
    replace cs with [0; 0x7fffffff; 0xffffffff]%Z by (vm_compute; reflexivity) end.
  split.
  { intros i a b. do 3 (destruct i as [|i]; [intros H1 H2; simpl in H1, H2; try done; injection H1 as <-; injection H2 as <-; lia|]).
    intros H. by vm_compute in H; destruct i. }
  exists [0; 0; 1; 1; 1; 1; 2; 2]. eexists. split; [|split; [|split; [|split]]].
  - do 8 (econstructor; [vm_compute; reflexivity|]). constructor.
  - intros t p. do 3 (destruct t as [|t]; [intros H; vm_compute in H; by injection H as <-|]).
    intros H. by vm_compute in H; destruct t.
  - vm_compute. reflexivity.
  - intros k nd. do 2 (destruct k as [|k]; [intros H; vm_compute in H; (done || injection H as <-; split; done)|]).
    intros H. by vm_compute in H; destruct k.
  - intros k nd. do 3 (destruct k as [|k]; [intros H; vm_compute in H; injection H as <-; done|]).
    intros H. by vm_compute in H; destruct k.
Qed.
Print Assumptions C18_morton32_2d_refuted.

(** Positive counterpart: the default Morton64 curve in 2 to 10 dimensions always gives a valid tree, provided
    N-1 (2^31-1 for DIM = 2 in double, at most 2^21-1 otherwise) is exactly representable; [rnd] is any
    monotone rounding. *)
Definition code64 (rnd : Q -> Q) (DIM : nat) (p : list Q) : Z :=
  Z.of_N (morton64_int DIM (map (fun c => Z.to_N (cell_coord rnd (2 ^ Z.of_nat (bits64 DIM)) c)) p)).

Theorem C18_morton64_multi_dim_partial :
  forall V (le : V -> V -> Prop) join bot vol rnd DIM (pts : list (list Q)) perm,
  JoinSemi le join bot -> mono_rnd rnd -> 2 <= DIM <= 10 ->
  (rnd (inject_Z (2 ^ Z.of_nat (bits64 DIM) - 1)) == inject_Z (2 ^ Z.of_nat (bits64 DIM) - 1))%Q ->
  Forall (fun p => length p = DIM) pts -> 2 <= length pts -> (Z.of_nat (length pts) <= 2 ^ 63)%Z ->
  perm ≡ₚ seq 0 (length pts) ->
  let codes := (fun o => code64 rnd DIM (default [] (pts !! o))) <$> perm in
  (forall i a b, codes !! i = Some a -> codes !! S i = Some b -> (a <= b)%Z) ->
  forall ts s, kernel_exec join bot vol 64 codes perm ts s -> all_done s ->
  exists T, tree_of (length pts - 1) s = Some T /\ ValidTree le vol perm T.
Proof.
  intros V le join bot vol rnd DIM pts perm JS Hm HD Hr HF Hn Hmax HP codes Hs ts s He Hd.
  assert (length perm = length pts) as Hp by (rewrite HP; apply seq_length).
  assert (length codes = length pts) as Hc by (unfold codes; by rewrite fmap_length).
  rewrite <- Hc.
  refine (proj2 (proj2 (C01_every_schedule_builds_valid_tree V le join bot vol 64 codes perm JS _ _ _ _ _ ts s He)) Hd);
    rewrite ?Hc; try lia.
  constructor; [exact Hs|]. intros i a Ha. unfold codes in Ha. rewrite list_lookup_fmap in Ha.
  destruct (perm !! i) as [o|] eqn:Ho; [|done]. injection Ha as <-.
  assert (o ∈ perm) as Hin by (by apply (elem_of_list_lookup_2 _ i)). rewrite HP in Hin. apply elem_of_seq in Hin.
  destruct (lookup_lt_is_Some_2 pts o ltac:(lia)) as [p Hpo]. rewrite Hpo. simpl.
  assert (length p = DIM) as Hlen by (rewrite Forall_lookup in HF; eauto).
  unfold code64. split; [lia|]. change (2 ^ (64 - 1))%Z with (Z.of_N (2 ^ 63)). apply N2Z.inj_lt.
  apply C17_morton64_interleaves; [lia|by rewrite map_length|].
  apply Forall_map. apply Forall_forall. intros c _. simpl.
  destruct (C17_cell_coordinate rnd (2 ^ Z.of_nat (bits64 DIM)) Hm ltac:(lia) Hr) as [H _]. specialize (H c).
  apply N2Z.inj_lt. rewrite Z2N.id by lia. rewrite N2Z.inj_pow, nat_N_Z. lia.
Qed.
Print Assumptions C18_morton64_multi_dim_partial.

Example C18_partial_example : code64 (fun x => x) 2 [0; 0]%Q = 0%Z /\
  code64 (fun x => x) 2 [1; 1]%Q = (2 ^ 62 - 1)%Z.
Proof. split; vm_compute; reflexivity. Qed.
