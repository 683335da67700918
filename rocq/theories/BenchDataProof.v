(** Proofs about the data generators of the benchmarks *)
From Verif Require Export Base KernelAlgProof BenchDataModel.

Lemma mapM_snoc {A B} (f : A -> option B) xs : forall ys x y, mapM f xs = Some ys -> f x = Some y -> mapM f (xs ++ [x]) = Some (ys ++ [y]).
Proof.
  induction xs as [|a xs IH]; intros ys x y E Ex.
  - injection E as <-. cbn. by rewrite Ex.
  - cbn in *. destruct (f a) as [b|]; [|done]. cbn in *. destruct (mapM f xs) as [bs|]; [|done]. cbn in E. injection E as <-. by rewrite (IH bs x y).
Qed.

Section Clouds.
Context {P : Type}.
Implicit Types (out data file : list P).

Lemma write_points_ok (point : nat -> P) ks : forall out, (forall k, k ∈ ks -> k < length out) ->
  exists out', write_points point ks out = Some out' /\ length out' = length out /\
    forall k, out' !! k = if decide (k ∈ ks) then Some (point k) else out !! k.
Proof.
  induction ks as [|k ks IH]; intros out H.
  { exists out. split; [done|]. split; [done|]. intros k. destruct (decide (k ∈ [])) as [E|]; [by apply elem_of_nil in E|done]. }
  cbn [write_points]. rewrite wr_Some by (apply H; left). cbn [mbind option_bind].
  destruct (IH (<[k := point k]> out)) as (out' & E & L & W).
  { intros j Hj. rewrite insert_length. apply H. by right. }
  rewrite insert_length in L. exists out'. split; [done|]. split; [done|]. intros j. rewrite W.
  destruct (decide (j ∈ ks)); destruct (decide (j ∈ k :: ks)) as [Hin|Hin]; try done.
  - destruct Hin. by right.
  - apply elem_of_cons in Hin as [->|]; [|done]. apply list_lookup_insert, H. left.
  - apply list_lookup_insert_ne. intros ->. apply Hin. left.
Qed.

Lemma cloud_batches_ok (point : nat -> P) order : forall out,
  exists out', cloud_batches point order out = Some out' /\ length out' = length out /\
    forall k, k < length out -> out' !! k = if decide (k / batch_size ∈ order) then Some (point k) else out !! k.
Proof.
  induction order as [|i order IH]; intros out.
  { exists out. split; [done|]. split; [done|]. intros k _. destruct (decide _) as [Hi|]; [by apply elem_of_nil in Hi|done]. }
  cbn [cloud_batches].
  destruct (write_points_ok point (seq (i * batch_size) (Nat.min ((i + 1) * batch_size) (length out) - i * batch_size)) out) as (o1 & E1 & L1 & W1).
  { intros k Hk. apply elem_of_seq in Hk. lia. }
  rewrite E1. cbn [mbind option_bind]. destruct (IH o1) as (o2 & E2 & L2 & W2). exists o2. split; [done|]. split; [congruence|].
  intros k Hk. rewrite W2, W1 by lia.
  assert (k ∈ seq (i * batch_size) (Nat.min ((i + 1) * batch_size) (length out) - i * batch_size) <-> k / batch_size = i) as HB.
  { rewrite elem_of_seq. unfold batch_size. split; intros H; [|subst i]; lia. }
  destruct (decide (k / batch_size ∈ order)) as [Hj|N1].
  - rewrite decide_True; [done|by right].
  - destruct (decide (k ∈ _)) as [Hin|Hin].
    + rewrite decide_True; [done|]. apply HB in Hin as ->. left.
    + rewrite decide_False; [done|]. intros Hj. apply elem_of_cons in Hj as [Hj|Hj]; [by apply Hin, HB|done].
Qed.

Lemma knuth_ok N M data : forall i_n i_m state, N = i_n + length data -> i_m <= M -> M - i_m <= length data ->
  length (knuth N M i_n i_m state data) = M - i_m /\ knuth N M i_n i_m state data `sublist_of` data.
Proof.
  induction data as [|x data IH]; intros i_n i_m state HN HM HL; cbn [knuth length] in *.
  { split; [lia|constructor]. }
  destruct (Nat.ltb_spec i_m M) as [Hm|Hm]; [|split; [cbn [length]; lia|apply sublist_nil_l]].
  destruct (Z.ltb_spec (lehmer state mod Z.of_nat (N - i_n)) (Z.of_nat (M - i_m))) as [Hr|Hr].
  - destruct (IH (S i_n) (S i_m) (lehmer state)) as [E S]; [lia..|]. split; [cbn [length]; lia|by constructor].
  - assert (lehmer state mod Z.of_nat (N - i_n) < Z.of_nat (N - i_n))%Z by (apply Z.mod_pos_bound; lia).
    destruct (IH (S i_n) i_m (lehmer state)) as [E S]; [lia..|]. split; [lia|by constructor].
Qed.

Lemma take_seg_app (file : list P) a b : take a file ++ take b (drop a file) = take (a + b) file.
Proof. by rewrite take_take_drop. Qed.

Lemma load_first (file : list P) max comm_size : forall m, m < comm_size ->
  exists parts, mapM (fun rank => load_rank file max rank comm_size) (seq 0 m) = Some parts /\
    concat parts = take (m * (num_to_read (length file) max / comm_size)) file.
Proof.
  induction m as [|m IH]; intros Hm; [by exists []|]. destruct IH as (parts & E & C); [lia|].
  rewrite seq_S, Nat.add_0_l.
  assert (load_rank file max m comm_size = Some (take (num_to_read (length file) max / comm_size) (drop (num_to_read (length file) max / comm_size * m) file))) as El.
  { unfold load_rank. destruct (Nat.eqb_spec m (comm_size - 1)); [lia|]. cbn [mbind option_bind]. by rewrite Nat.add_0_r. }
  exists (parts ++ [take (num_to_read (length file) max / comm_size) (drop (num_to_read (length file) max / comm_size * m) file)]). split.
  - by apply mapM_snoc.
  - rewrite concat_app, C. cbn [concat]. rewrite app_nil_r, (Nat.mul_comm _ m), take_seg_app. f_equal. lia.
Qed.

Lemma load_all_ok (file : list P) max comm_size : 1 <= comm_size -> comm_size <= num_to_read (length file) max ->
  exists parts, load_all file max comm_size = Some parts /\ length parts = comm_size /\
    concat parts = take (comm_size * (num_to_read (length file) max / comm_size) + num_to_read (length file) max mod (num_to_read (length file) max / comm_size)) file.
Proof.
  intros H1 Hn. set (num := num_to_read (length file) max) in *.
  assert (1 <= num / comm_size) as Hp by (apply Nat.div_le_lower_bound; lia).
  destruct (load_first file max comm_size (comm_size - 1)) as (parts & E & C); [lia|].
  assert (load_rank file max (comm_size - 1) comm_size = Some (take (num / comm_size + num mod (num / comm_size)) (drop (num / comm_size * (comm_size - 1)) file))) as El.
  { unfold load_rank. fold num. rewrite Nat.eqb_refl. destruct (Nat.eqb_spec (num / comm_size) 0); [lia|]. done. }
  eexists. split.
  { unfold load_all. replace (seq 0 comm_size) with (seq 0 (comm_size - 1) ++ [comm_size - 1]).
    - by apply mapM_snoc.
    - replace comm_size with (S (comm_size - 1)) at 3 by lia. by rewrite seq_S. }
  split.
  - rewrite app_length. apply mapM_length in E. rewrite seq_length in E. cbn [length]. lia.
  - rewrite concat_app, C. cbn [concat]. fold num. rewrite app_nil_r, (Nat.mul_comm _ (comm_size - 1)), take_seg_app. f_equal. nia.
Qed.
End Clouds.

Lemma lattice_pos_S num_seq spacing p : 1 <= num_seq -> 1 <= spacing ->
  lattice_pos num_seq spacing (S p) = lattice_pos num_seq spacing p + (if (S p) mod num_seq =? 0 then spacing else 1).
Proof.
  intros H1 H2. unfold lattice_pos.
  pose proof (Nat.div_mod p num_seq ltac:(lia)) as E. pose proof (Nat.mod_upper_bound p num_seq ltac:(lia)) as B.
  set (q := p / num_seq) in *. set (r := p mod num_seq) in *.
  destruct (Nat.eq_dec (S r) num_seq) as [Er|Er].
  - assert (S p / num_seq = S q) as -> by (symmetry; apply (Nat.div_unique _ _ _ 0); lia).
    assert (S p mod num_seq = 0) as -> by (symmetry; apply (Nat.mod_unique _ _ (S q)); lia).
    cbn [Nat.eqb]. nia.
  - assert (S p / num_seq = q) as -> by (symmetry; apply (Nat.div_unique _ _ _ (S r)); lia).
    assert (S p mod num_seq = S r) as -> by (symmetry; apply (Nat.mod_unique _ _ q); lia).
    cbn [Nat.eqb]. nia.
Qed.
Lemma lattice_pos_lt num_seq spacing p q : 1 <= num_seq -> 1 <= spacing -> p < q -> lattice_pos num_seq spacing p < lattice_pos num_seq spacing q.
Proof.
  intros H1 H2 H. induction H as [|q H IH]; rewrite lattice_pos_S by done.
  - destruct (_ =? _); lia.
  - destruct (_ =? _); lia.
Qed.
Lemma lattice_pos_inj num_seq spacing p q : 1 <= num_seq -> 1 <= spacing -> lattice_pos num_seq spacing p = lattice_pos num_seq spacing q -> p = q.
Proof.
  intros H1 H2 E. destruct (Nat.lt_trichotomy p q) as [H|[H|H]]; [|done|]; apply (lattice_pos_lt num_seq spacing) in H; lia.
Qed.

(** Digits *)
Fixpoint undigits (fs ds : list nat) : nat := match fs, ds with f :: fs, d :: ds => d + f * undigits fs ds | _, _ => 0 end.
Lemma digits_length fs : forall s, length (digits fs s) = length fs.
Proof. induction fs as [|f fs IH]; intros s; [done|]. cbn [digits length]. by rewrite IH. Qed.
Lemma digits_bound fs : (forall f, f ∈ fs -> 1 <= f) -> forall s, Forall2 lt (digits fs s) fs.
Proof.
  induction fs as [|f fs IH]; intros H s; [constructor|]. cbn [digits]. constructor; [apply Nat.mod_upper_bound; specialize (H f ltac:(left)); lia|].
  apply IH. intros g Hg. apply H. by right.
Qed.
Lemma undigits_digits fs : (forall f, f ∈ fs -> 1 <= f) -> forall s, s < foldr Nat.mul 1 fs -> undigits fs (digits fs s) = s.
Proof.
  induction fs as [|f fs IH]; intros H s Hs; [cbn in *; lia|]. cbn [digits undigits foldr] in *. specialize (H f ltac:(left)) as Hf.
  rewrite IH; [|intros g Hg; apply H; by right|apply Nat.div_lt_upper_bound; lia]. pose proof (Nat.div_mod s f ltac:(lia)). lia.
Qed.
Lemma digits_undigits fs ds : Forall2 lt ds fs -> digits fs (undigits fs ds) = ds /\ undigits fs ds < foldr Nat.mul 1 fs.
Proof.
  induction 1 as [|d f ds fs Hd HF [IH1 IH2]]; [split; [done|cbn; lia]|]. cbn [digits undigits foldr].
  assert ((d + f * undigits fs ds) mod f = d) as -> by (symmetry; apply (Nat.mod_unique _ _ (undigits fs ds)); lia).
  assert ((d + f * undigits fs ds) / f = undigits fs ds) as -> by (symmetry; apply (Nat.div_unique _ _ _ d); lia).
  rewrite IH1. split; [done|nia].
Qed.
Lemma flat_undigits nx ds : flat nx ds = undigits (replicate (length ds) nx) ds.
Proof. induction ds as [|d ds IH]; [done|]. cbn [flat length replicate undigits]. by rewrite IH. Qed.
Lemma product_replicate n nx : foldr Nat.mul 1 (replicate n nx) = nx ^ n.
Proof. induction n as [|n IH]; [done|]. cbn [replicate foldr Nat.pow]. by rewrite IH. Qed.
Lemma flat_digits DIM nx t : 1 <= nx -> t < nx ^ DIM -> flat nx (digits (replicate DIM nx) t) = t.
Proof.
  intros Hx Ht. rewrite flat_undigits, digits_length, replicate_length. apply undigits_digits.
  - intros f Hf. apply elem_of_replicate in Hf as [-> _]. done.
  - by rewrite product_replicate.
Qed.

Lemma par_writes_seq {A} (dst : nat -> nat) (val : nat -> A) order n (out : list A) : order ≡ₚ seq 0 n -> length out = n ->
  (forall t, t < n -> dst t = t) -> par_writes (fun t => Some (dst t)) (fun t => Some (val t)) order out = Some (map val (seq 0 n)).
Proof.
  intros HO HL Hd. destruct (par_writes_correct (fun t => Some (dst t)) (fun t => Some (val t)) order out) as (out' & E & L & W & _).
  - rewrite HO. apply NoDup_seq.
  - intros i Hi. rewrite HO in Hi. apply elem_of_seq in Hi. exists (dst i), (val i). rewrite Hd by lia. split; [done|]. split; [done|lia].
  - intros i j d Hi Hj. rewrite HO in Hi, Hj. apply elem_of_seq in Hi, Hj. rewrite !Hd by lia. congruence.
  - rewrite E. f_equal. apply list_eq. intros k. destruct (decide (k < n)) as [Hk|Hk].
    + rewrite (W k k); [|rewrite HO; apply elem_of_seq; lia|by rewrite Hd]. change (map val (seq 0 n)) with (val <$> seq 0 n).
      rewrite list_lookup_fmap, lookup_seq_lt by lia. done.
    + rewrite !lookup_ge_None_2; [done|rewrite map_length, seq_length; lia|lia].
Qed.

Lemma nodup_grid {A B C} (g : A -> B -> C) (rs : list A) (ts : list B) : NoDup rs -> NoDup ts ->
  (forall r r' t t', r ∈ rs -> r' ∈ rs -> t ∈ ts -> t' ∈ ts -> g r t = g r' t' -> r = r' /\ t = t') ->
  NoDup (concat (map (fun r => map (g r) ts) rs)).
Proof.
  intros Nr Nt. induction Nr as [|r rs Hr Nr IH]; intros H; [constructor|]. cbn [map concat]. apply NoDup_app. split; [|split].
  - change (map (g r) ts) with (g r <$> ts). apply NoDup_fmap_2_strong; [|done]. intros x y Hx Hy E. by apply (H r r x y); try left.
  - intros c Hc Hc'. apply elem_of_list_In, in_map_iff in Hc as (t & <- & Ht). apply elem_of_list_In, in_concat in Hc' as (l & Hl & Hin).
    apply in_map_iff in Hl as (r' & <- & Hr'). apply in_map_iff in Hin as (t' & E & Ht').
    destruct (H r' r t' t) as [-> _]; [right; by apply elem_of_list_In|left|by apply elem_of_list_In|by apply elem_of_list_In|done|]. by apply elem_of_list_In in Hr'.
  - apply IH. intros r1 r2 t1 t2 H1 H2. apply H; by right.
Qed.
Lemma elem_grid {A B C} (g : A -> B -> C) (rs : list A) (ts : list B) c :
  c ∈ concat (map (fun r => map (g r) ts) rs) <-> exists r t, r ∈ rs /\ t ∈ ts /\ c = g r t.
Proof.
  rewrite elem_of_list_In, in_concat. split.
  - intros (l & Hl & Hin). apply in_map_iff in Hl as (r & <- & Hr). apply in_map_iff in Hin as (t & <- & Ht). exists r, t. apply elem_of_list_In in Hr, Ht. done.
  - intros (r & t & Hr & Ht & ->). exists (map (g r) ts). apply elem_of_list_In in Hr, Ht. split; apply in_map_iff; eauto.
Qed.

Lemma coords_inj nx Is : forall is Is' is', length is = length Is -> length Is' = length Is -> length is' = length Is ->
  Forall (fun i => i < nx) is -> Forall (fun i => i < nx) is' ->
  zip_with (fun I i => I * nx + i) Is is = zip_with (fun I i => I * nx + i) Is' is' -> Is = Is' /\ is = is'.
Proof.
  induction Is as [|I Is IH]; intros [|i is] [|I' Is'] [|i' is'] L1 L2 L3 F1 F2 E; try (cbn in *; lia); [done|].
  apply Forall_cons in F1 as [B1 F1], F2 as [B2 F2]. cbn [zip_with] in E. injection E as E0 E. cbn [length] in *.
  destruct (IH is Is' is') as [-> ->]; [lia..|done|done|done|]. assert (I = I' /\ i = i') as [-> ->] by (apply (Nat.div_mod_unique nx); lia). done.
Qed.
Lemma coords_split nx ps fs : 1 <= nx -> Forall2 (fun p f => p < f * nx) ps fs ->
  exists Is is, Forall2 lt Is fs /\ Forall2 lt is (replicate (length fs) nx) /\ ps = zip_with (fun I i => I * nx + i) Is is.
Proof.
  intros Hx. induction 1 as [|p f ps fs Hp HF (Is & is & H1 & H2 & ->)]; [exists [], []; by repeat constructor|].
  exists (p / nx :: Is), (p mod nx :: is). cbn [length replicate zip_with]. split; [constructor; [apply Nat.div_lt_upper_bound; lia|done]|].
  split; [constructor; [apply Nat.mod_upper_bound; lia|done]|]. f_equal. pose proof (Nat.div_mod p nx ltac:(lia)). lia.
Qed.
Lemma coords_bound nx Is fs is : Forall2 lt Is fs -> Forall2 lt is (replicate (length fs) nx) ->
  Forall2 (fun p f => p < f * nx) (zip_with (fun I i => I * nx + i) Is is) fs.
Proof.
  intros H. revert is. induction H as [|I f Is fs Hd HF IH]; intros is Hi; [constructor|]. cbn [length replicate] in Hi.
  inversion Hi as [|i x is' xs Hx HF' E1 E2]; subst. cbn [zip_with]. constructor; [nia|by apply IH].
Qed.
Lemma lattice_point_map num_seq spacing nx Is is : lattice_point num_seq spacing nx Is is = map (lattice_pos num_seq spacing) (zip_with (fun I i => I * nx + i) Is is).
Proof. unfold lattice_point. revert is. induction Is as [|I Is IH]; intros [|i is]; [done..|]. cbn [zip_with map]. by rewrite IH. Qed.
Lemma map_inj {A B} (f : A -> B) l : forall l', (forall x y, f x = f y -> x = y) -> map f l = map f l' -> l = l'.
Proof. induction l as [|x l IH]; intros [|y l'] H E; try done. cbn in E. injection E as E0 E. f_equal; [by apply H|by apply IH]. Qed.

Lemma lattice_rank_ok DIM nx num_seq spacing rank comm_size order (out : list (list nat)) factors : 1 <= nx -> closestFactors DIM comm_size = Some factors ->
  order ≡ₚ seq 0 (nx ^ DIM) -> length out = nx ^ DIM ->
  lattice DIM nx num_seq spacing rank comm_size order out =
    Some (map (fun t => lattice_point num_seq spacing nx (digits factors rank) (digits (replicate DIM nx) t)) (seq 0 (nx ^ DIM))).
Proof.
  intros Hx EF HO HL. unfold lattice. rewrite EF. cbn [mbind option_bind]. apply par_writes_seq; [done|done|]. intros t Ht. by apply flat_digits.
Qed.

Lemma grid_bound n nx t : 1 <= nx -> Forall (fun i => i < nx) (digits (replicate n nx) t).
Proof.
  intros Hx. revert t. induction n as [|n IH]; intros t; [constructor|]. cbn [replicate digits]. constructor; [apply Nat.mod_upper_bound; lia|apply IH].
Qed.

Lemma lattice_all_ok DIM nx num_seq spacing comm_size factors : 1 <= nx -> 1 <= num_seq -> 1 <= spacing ->
  length factors = DIM -> foldr Nat.mul 1 factors = comm_size -> (forall f, f ∈ factors -> 1 <= f) ->
  let pts := concat (map (fun rank => map (fun t => lattice_point num_seq spacing nx (digits factors rank) (digits (replicate DIM nx) t)) (seq 0 (nx ^ DIM))) (seq 0 comm_size)) in
  NoDup pts /\ forall x, x ∈ pts <-> exists ps, Forall2 (fun p f => p < f * nx) ps factors /\ x = map (lattice_pos num_seq spacing) ps.
Proof.
  intros Hx Hn Hs HL HP HF pts.
  assert (forall f, f ∈ replicate DIM nx -> 1 <= f) as HR by (intros f Hf; by apply elem_of_replicate in Hf as [-> _]).
  split.
  - apply (nodup_grid (fun rank t => lattice_point num_seq spacing nx (digits factors rank) (digits (replicate DIM nx) t))); [apply NoDup_seq..|].
    intros r r' t t' Hr Hr' Ht Ht' E. apply elem_of_seq in Hr, Hr', Ht, Ht'.
    rewrite !lattice_point_map in E. apply map_inj in E; [|intros x y; by apply lattice_pos_inj].
    apply coords_inj in E as [E1 E2]; [|rewrite !digits_length, ?replicate_length; lia..|by apply grid_bound|by apply grid_bound].
    split.
    + rewrite <- (undigits_digits factors HF r), <- (undigits_digits factors HF r') by lia. by rewrite E1.
    + rewrite <- (undigits_digits _ HR t), <- (undigits_digits _ HR t') by (rewrite product_replicate; lia). by rewrite E2.
  - intros x. unfold pts. rewrite (elem_grid (fun rank t => lattice_point num_seq spacing nx (digits factors rank) (digits (replicate DIM nx) t))). split.
    + intros (r & t & Hr & Ht & ->). apply elem_of_seq in Hr, Ht. eexists. split; [|apply lattice_point_map].
      apply coords_bound; [by apply digits_bound|]. rewrite HL. by apply digits_bound.
    + intros (ps & Hps & ->). destruct (coords_split nx ps factors Hx Hps) as (Is & is & H1 & H2 & ->). rewrite HL in H2.
      destruct (digits_undigits _ _ H1) as [E1 B1]. destruct (digits_undigits _ _ H2) as [E2 B2]. rewrite product_replicate in B2.
      exists (undigits factors Is), (undigits (replicate DIM nx) is). rewrite !elem_of_seq. split; [lia|]. split; [lia|]. rewrite E1, E2. by rewrite lattice_point_map.
Qed.

(** Edges of the union-find benchmark *)
Lemma build_edges_ok rand permute order (out : list (nat * nat)) m : permute ≡ₚ seq 0 m -> order ≡ₚ seq 0 m -> length out = m ->
  exists edges, build_edges rand permute order out = Some edges /\ length edges = m /\
    (forall i, i < m -> exists k, k < m /\ permute !! i = Some k /\ edges !! k = Some (rand i mod (i + 1), i + 1)) /\
    (forall e, e ∈ edges -> exists i, i < m /\ e = (rand i mod (i + 1), i + 1)).
Proof.
  intros HP HO HL. assert (length permute = m) as LP by (rewrite HP; apply seq_length).
  assert (NoDup permute) as NP by (rewrite HP; apply NoDup_seq).
  assert (forall i k, permute !! i = Some k -> k < m) as HB.
  { intros i k Hk. apply elem_of_list_lookup_2 in Hk. rewrite HP in Hk. apply elem_of_seq in Hk. lia. }
  destruct (par_writes_correct (fun i => permute !! i) (fun i => Some (rand i mod (i + 1), i + 1)) order out) as (edges & E & L & W & _).
  - rewrite HO. apply NoDup_seq.
  - intros i Hi. rewrite HO in Hi. apply elem_of_seq in Hi. destruct (lookup_lt_is_Some_2 permute i) as [k Hk]; [lia|]. exists k, (rand i mod (i + 1), i + 1).
    split; [done|]. split; [done|]. rewrite HL. by eapply HB.
  - intros i j d _ _ H1 H2. by eapply NoDup_lookup.
  - assert (forall i, i < m -> exists k, k < m /\ permute !! i = Some k /\ edges !! k = Some (rand i mod (i + 1), i + 1)) as HE.
    { intros i Hi. destruct (lookup_lt_is_Some_2 permute i) as [k Hk]; [lia|]. exists k. split; [by eapply HB|]. split; [done|].
      apply (W i k); [rewrite HO; apply elem_of_seq; lia|done]. }
    exists edges. split; [done|]. split; [lia|]. split; [done|]. intros e He. apply elem_of_list_lookup_1 in He as [k Hk].
    assert (k ∈ permute) as Hin by (rewrite HP; apply elem_of_seq; apply lookup_lt_Some in Hk; lia).
    apply elem_of_list_lookup_1 in Hin as [i Hi]. assert (i < m) by (apply lookup_lt_Some in Hi; lia).
    destruct (HE i) as (k' & _ & E1 & E2); [done|]. exists i. split; [done|]. congruence.
Qed.
