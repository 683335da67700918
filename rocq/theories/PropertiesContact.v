(** C101: the spheres of the distributed contact benchmark. *)
From Verif Require Import Base ContactModel.
Local Open Scope nat_scope.

(** Spec.  The spheres have radius 1/2 (unit_sphere.txt) and the spacing of the lattice is 4/5: two of them meet if 16 times the square of the distance of their
    places is at most 25.  A sphere is a primitive or a predicate of a rank. *)
Definition Meet (a b : nat * nat * nat) : Prop :=
  let dx := (Z.of_nat a.1.1 - Z.of_nat b.1.1)%Z in let dy := (Z.of_nat a.1.2 - Z.of_nat b.1.2)%Z in let dz := (Z.of_nat a.2 - Z.of_nat b.2)%Z in
  (16 * (dx * dx + dy * dy + dz * dz) <= 25)%Z.
Definition Sphere (N r : nat) (predicate : bool) (a : nat * nat * nat) : Prop :=
  exists prims preds, build_mesh N r = Some (prims, preds) /\ a ∈ (if predicate then preds else prims).
(** On the boundary of a cube of 5^3 places. *)
Definition Boundary (a : nat * nat * nat) : Prop :=
  let on x := x mod 5 = 0 \/ x mod 5 = 4 in on a.1.1 \/ on a.1.2 \/ on a.2.

Lemma bind_some {A B} (x : A) (f : A -> option B) : (Some x ≫= f) = f x.
Proof. reflexivity. Qed.
Lemma cells_in i j k (l m n : list nat) : (i, j, k) ∈ (i ← l; j ← m; k ← n; [(i, j, k)]) <-> i ∈ l /\ j ∈ m /\ k ∈ n.
Proof.
  rewrite elem_of_list_bind. split.
  - intros (x & H & Hx). apply elem_of_list_bind in H as (y & H & Hy). apply elem_of_list_bind in H as (z & H & Hz). apply elem_of_list_singleton in H. injection H as -> -> ->. done.
  - intros (Hi & Hj & Hk). exists i. split; [|done]. apply elem_of_list_bind. exists j. split; [|done]. apply elem_of_list_bind. exists k. split; [|done]. by left.
Qed.
Lemma sphere_iff N r X Y Z p a : rank_place N r = Some (X, Y, Z) -> Sphere N r p a <->
  exists i j k, i < 5 /\ j < 5 /\ k < 5 /\ on_surface i j k = true /\ is_predicate i j k = p /\ a = (X * 5 + i, Y * 5 + j, Z * 5 + k).
Proof.
  intros HP. unfold Sphere, build_mesh. rewrite HP, bind_some. cbv beta zeta.
  set (cells := List.filter (fun '(i, j, k) => on_surface i j k) _).
  assert (forall i j k, In (i, j, k) cells <-> i < 5 /\ j < 5 /\ k < 5 /\ on_surface i j k = true) as HC.
  { intros i j k. unfold cells. rewrite filter_In, <- elem_of_list_In, cells_in, !elem_of_seq. unfold rows_per_dim. split; [intros [[H1 [H2 H3]] H]|intros (H1 & H2 & H3 & H)]; split_and?; try lia; done. }
  clearbody cells.
  assert (forall q, In a (map (fun '(i, j, k) => sphere_place (X, Y, Z) i j k) (List.filter (fun '(i, j, k) => eqb (is_predicate i j k) q) cells)) <->
    exists i j k, i < 5 /\ j < 5 /\ k < 5 /\ on_surface i j k = true /\ is_predicate i j k = q /\ a = (X * 5 + i, Y * 5 + j, Z * 5 + k)) as HI.
  { intros q. rewrite in_map_iff. split.
    - intros ([[i j] k] & E & H). apply filter_In in H as [H1 H2]. apply HC in H1 as (? & ? & ? & ?). apply eqb_prop in H2. exists i, j, k. split_and!; try done.
    - intros (i & j & k & ? & ? & ? & ? & E & ->). exists (i, j, k). split; [done|]. apply filter_In. split; [by apply HC|]. by rewrite E, eqb_reflx. }
  rewrite <- HI. split.
  - intros (prims & preds & E & H). injection E as <- <-. destruct p; apply elem_of_list_In in H; apply in_map_iff in H as ([[i j] k] & E & H); apply filter_In in H as [H1 H2];
      apply in_map_iff; exists (i, j, k); (split; [done|]); apply filter_In; (split; [done|]); destruct (is_predicate i j k); done.
  - intros H. do 2 eexists. split; [reflexivity|]. destruct p; apply elem_of_list_In; apply in_map_iff in H as ([[i j] k] & E & H); apply filter_In in H as [H1 H2];
      apply in_map_iff; exists (i, j, k); (split; [done|]); apply filter_In; (split; [done|]); destruct (is_predicate i j k); done.
Qed.
Lemma place_some N r : 1 <= N -> exists X Y Z, rank_place N r = Some (X, Y, Z) /\ r = X * (N * N) + Y * N + Z /\ Y < N /\ Z < N.
Proof.
  intros HN. unfold rank_place. destruct (N =? 0) eqn:E; [apply Nat.eqb_eq in E; lia|]. do 3 eexists. split; [reflexivity|].
  pose proof (Nat.div_mod_eq r (N * N)) as H1. pose proof (Nat.mod_upper_bound r (N * N) ltac:(nia)) as H2.
  replace (r - r / (N * N) * (N * N)) with (r mod (N * N)) by lia.
  pose proof (Nat.div_mod_eq (r mod (N * N)) N) as H3. pose proof (Nat.mod_upper_bound (r mod (N * N)) N ltac:(lia)) as H4.
  replace (r mod (N * N) - r mod (N * N) / N * N) with ((r mod (N * N)) mod N) by lia.
  split_and!; [lia| |done]. apply Nat.div_lt_upper_bound; lia.
Qed.
Lemma place_rank N r X Y Z : rank_place N r = Some (X, Y, Z) -> r = X * (N * N) + Y * N + Z /\ Y < N /\ Z < N.
Proof.
  intros H. destruct N as [|N]; [done|]. destruct (place_some (S N) r ltac:(lia)) as (X' & Y' & Z' & E & H'). rewrite H in E. injection E as <- <- <-. exact H'.
Qed.
Lemma rank_of_place N X Y Z : Y < N -> Z < N -> rank_place N (X * (N * N) + Y * N + Z) = Some (X, Y, Z).
Proof.
  intros HY HZ. destruct (place_some N (X * (N * N) + Y * N + Z) ltac:(lia)) as (X' & Y' & Z' & -> & E & HY' & HZ').
  assert (Y * N + Z < N * N) as H1 by nia. assert (Y' * N + Z' < N * N) as H2 by nia.
  assert (X = X' /\ Y * N + Z = Y' * N + Z') as [-> E2].
  { apply (Nat.div_mod_unique (N * N)); [done|done|nia]. }
  assert (Y = Y' /\ Z = Z') as [-> ->]; [|done]. apply (Nat.div_mod_unique N); [done|done|nia].
Qed.
Lemma surface_iff i j k : i < 5 -> j < 5 -> k < 5 -> on_surface i j k = true <-> (i = 0 \/ i = 4) \/ (j = 0 \/ j = 4) \/ (k = 0 \/ k = 4).
Proof.
  intros Hi Hj Hk. unfold on_surface, rows_per_dim. rewrite negb_true_iff, !andb_false_iff, !Nat.ltb_ge. lia.
Qed.
Lemma mod5 X i : i < 5 -> (X * 5 + i) mod 5 = i.
Proof. intros H. rewrite Nat.add_comm, Nat.mod_add by lia. by apply Nat.mod_small. Qed.

(** For every number of ranks, whatever the cube root was rounded to: each rank has 48 primitives and 50 predicates, no two in the same place, and no place belongs to
    two ranks.  If the number of ranks is a cube, the spheres fill exactly the boundaries of the N^3 small cubes. *)
Theorem C101_places : forall N, 1 <= N ->
  (forall r, exists prims preds, build_mesh N r = Some (prims, preds) /\ length prims = 48 /\ length preds = 50 /\ NoDup (prims ++ preds)) /\
  (forall r r' p p' a, Sphere N r p a -> Sphere N r' p' a -> r = r' /\ p = p') /\
  (forall a, (exists r p, r < N * N * N /\ Sphere N r p a) <-> a.1.1 < 5 * N /\ a.1.2 < 5 * N /\ a.2 < 5 * N /\ Boundary a).
Proof.
  intros N HN. split_and!.
  - intros r. destruct (place_some N r HN) as (X & Y & Z & HP & _). unfold build_mesh. rewrite HP, bind_some. cbv beta zeta. do 2 eexists. split; [reflexivity|].
    rewrite !map_length. split; [vm_compute; reflexivity|]. split; [vm_compute; reflexivity|]. rewrite <- map_app.
    assert (Inj eq eq (fun '(i, j, k) => sphere_place (X, Y, Z) i j k)); [|apply (NoDup_fmap_2 (fun '(i, j, k) => sphere_place (X, Y, Z) i j k)); apply (bool_decide_unpack _); vm_compute; reflexivity].
    intros [[i j] k] [[i' j'] k'] E. unfold sphere_place in E. cbn [fst snd] in E. injection E as E1 E2 E3. f_equal; [f_equal|]; lia.
  - intros r r' p p' a H H'. destruct (place_some N r HN) as (X & Y & Z & HP & _). destruct (place_some N r' HN) as (X' & Y' & Z' & HP' & _).
    apply (sphere_iff N r X Y Z p a HP) in H as (i & j & k & Hi & Hj & Hk & Hs & Hp & E). apply (sphere_iff N r' X' Y' Z' p' a HP') in H' as (i' & j' & k' & Hi' & Hj' & Hk' & Hs' & Hp' & E').
    rewrite E in E'. injection E' as E1 E2 E3. assert (X = X' /\ i = i') as [-> ->] by lia. assert (Y = Y' /\ j = j') as [-> ->] by lia. assert (Z = Z' /\ k = k') as [-> ->] by lia.
    apply place_rank in HP as (-> & _). apply place_rank in HP' as (-> & _). split; [done|]. congruence.
  - intros [[x y] z]. cbn [fst snd]. split.
    + intros (r & p & Hr & H). destruct (place_some N r HN) as (X & Y & Z & HP & HR & HY & HZ).
      pose proof (proj1 (sphere_iff N r X Y Z p _ HP) H) as (i & j & k & Hi & Hj & Hk & Hs & Hp & E). injection E as -> -> ->.
      assert (X < N) as HX by nia. split; [lia|]. split; [lia|]. split; [lia|].
      unfold Boundary. cbn [fst snd]. rewrite !mod5 by done. by apply surface_iff.
    + intros (Hx & Hy & Hz & HB). exists (x / 5 * (N * N) + y / 5 * N + z / 5), (is_predicate (x mod 5) (y mod 5) (z mod 5)).
      assert (x / 5 < N) as Hx5 by (apply Nat.div_lt_upper_bound; lia). assert (y / 5 < N) as Hy5 by (apply Nat.div_lt_upper_bound; lia). assert (z / 5 < N) as Hz5 by (apply Nat.div_lt_upper_bound; lia).
      split; [nia|]. apply (sphere_iff N _ (x / 5) (y / 5) (z / 5)); [by apply rank_of_place|].
      pose proof (Nat.mod_upper_bound x 5 ltac:(lia)). pose proof (Nat.mod_upper_bound y 5 ltac:(lia)). pose proof (Nat.mod_upper_bound z 5 ltac:(lia)).
      pose proof (Nat.div_mod_eq x 5). pose proof (Nat.div_mod_eq y 5). pose proof (Nat.div_mod_eq z 5).
      exists (x mod 5), (y mod 5), (z mod 5). split_and!; [done|done|done|by apply surface_iff|done|f_equal; [f_equal|]; lia].
Qed.
Print Assumptions C101_places.

Lemma meet_cases a b : Meet a b -> a = b \/
  (a.1.2 = b.1.2 /\ a.2 = b.2 /\ (a.1.1 = S b.1.1 \/ b.1.1 = S a.1.1)) \/
  (a.1.1 = b.1.1 /\ a.2 = b.2 /\ (a.1.2 = S b.1.2 \/ b.1.2 = S a.1.2)) \/
  (a.1.1 = b.1.1 /\ a.1.2 = b.1.2 /\ (a.2 = S b.2 \/ b.2 = S a.2)).
Proof.
  destruct a as [[x y] z], b as [[x' y'] z']. unfold Meet. cbn [fst snd].
  remember (Z.of_nat x - Z.of_nat x')%Z as dx eqn:Ex. remember (Z.of_nat y - Z.of_nat y')%Z as dy eqn:Ey. remember (Z.of_nat z - Z.of_nat z')%Z as dz eqn:Ez. intros H.
  assert (forall u : Z, (u = 0 /\ u * u = 0) \/ ((u = 1 \/ u = -1) /\ u * u = 1) \/ 4 <= u * u)%Z as HS.
  { intros u. destruct (Z.eq_dec u 0) as [->|H0]; [left; lia|]. destruct (Z.eq_dec u 1) as [->|H1]; [right; left; lia|]. destruct (Z.eq_dec u (-1)) as [->|H2]; [right; left; lia|]. right. right. nia. }
  assert ((dx = 0 /\ dy = 0 /\ dz = 0) \/ (dy = 0 /\ dz = 0 /\ (dx = 1 \/ dx = -1)) \/ (dx = 0 /\ dz = 0 /\ (dy = 1 \/ dy = -1)) \/ (dx = 0 /\ dy = 0 /\ (dz = 1 \/ dz = -1)))%Z as HD.
  { clear Ex Ey Ez. pose proof (HS dx) as A. pose proof (HS dy) as B. pose proof (HS dz) as C. clear HS.
    set (sx := (dx * dx)%Z) in *. set (sy := (dy * dy)%Z) in *. set (sz := (dz * dz)%Z) in *. clearbody sx sy sz.
    destruct A as [[A A']|[[A A']|A]], B as [[B B']|[[B B']|B]], C as [[C C']|[[C C']|C]]; try (exfalso; lia).
    - left. done.
    - right. right. right. done.
    - right. right. left. done.
    - right. left. done. }
  clear H HS.
  destruct HD as [(D1 & D2 & D3)|[(D1 & D2 & D3)|[(D1 & D2 & D3)|(D1 & D2 & D3)]]].
  - left. f_equal; [f_equal|]; lia.
  - right. left. split_and!; lia.
  - right. right. left. split_and!; lia.
  - right. right. right. split_and!; lia.
Qed.
Lemma parity i j k : is_predicate i j k = Nat.even (i + j + k).
Proof.
  unfold is_predicate. rewrite (Nat.div_mod_eq (i + j + k) 2) at 2. pose proof (Nat.mod_upper_bound (i + j + k) 2 ltac:(lia)) as H. rewrite Nat.even_add, Nat.even_mul. cbn [Nat.even orb].
  destruct ((i + j + k) mod 2) as [|[|]]; [done|done|lia].
Qed.

(** Two different spheres of one rank that meet are a primitive and a predicate; two spheres of different ranks that meet are of the same kind.  So the search for
    primitives meeting the predicates finds every contact inside the ranks and none between them. *)
Theorem C101_contacts : forall N r r' p p' a b, 1 <= N -> Sphere N r p a -> Sphere N r' p' b -> a <> b -> Meet a b -> (p = p' <-> r <> r').
Proof.
  intros N r r' p p' a b HN H H' Hab HM. destruct (place_some N r HN) as (X & Y & Z & HP & _). destruct (place_some N r' HN) as (X' & Y' & Z' & HP' & _).
  apply (sphere_iff N r X Y Z p a HP) in H as (i & j & k & Hi & Hj & Hk & Hs & Hp & E). apply (sphere_iff N r' X' Y' Z' p' b HP') in H' as (i' & j' & k' & Hi' & Hj' & Hk' & Hs' & Hp' & E').
  rewrite parity in Hp, Hp'. apply meet_cases in HM as [HM|HM]; [done|].
  assert (r = r' <-> X = X' /\ Y = Y' /\ Z = Z') as Hrr.
  { split; [intros ->; rewrite HP in HP'; by injection HP' as -> -> ->|]. intros (-> & -> & ->). apply place_rank in HP as (-> & _). by apply place_rank in HP' as (-> & _). }
  assert ((X = X' /\ Y = Y' /\ Z = Z' /\ (i + j + k = S (i' + j' + k') \/ i' + j' + k' = S (i + j + k))) \/
          (~ (X = X' /\ Y = Y' /\ Z = Z') /\ (i + j + k = 4 + (i' + j' + k') \/ i' + j' + k' = 4 + (i + j + k)))) as HC.
  { rewrite E, E' in HM. cbn [fst snd] in HM. clear - HM Hi Hj Hk Hi' Hj' Hk'. destruct HM as [(A & B & C)|[(A & B & C)|(A & B & C)]].
    - assert (Y = Y' /\ j = j') as [-> ->] by lia. assert (Z = Z' /\ k = k') as [-> ->] by lia. lia.
    - assert (X = X' /\ i = i') as [-> ->] by lia. assert (Z = Z' /\ k = k') as [-> ->] by lia. lia.
    - assert (X = X' /\ i = i') as [-> ->] by lia. assert (Y = Y' /\ j = j') as [-> ->] by lia. lia. }
  destruct HC as [(E1 & E2 & E3 & HC)|(HN' & HC)].
  - assert (r = r') as Hr by (by apply Hrr). split; [|intros; done]. intros Hpp _. rewrite <- Hp, <- Hp' in Hpp.
    destruct HC as [HC|HC]; rewrite HC, Nat.even_succ, <- Nat.negb_even in Hpp; [destruct (Nat.even (i' + j' + k'))|destruct (Nat.even (i + j + k))]; done.
  - split; [intros _ Hr; apply HN'; by apply Hrr|]. intros _. rewrite <- Hp, <- Hp'. destruct HC as [HC|HC]; rewrite HC, (Nat.even_add 4); cbn [Nat.even]; [destruct (Nat.even (i' + j' + k'))|destruct (Nat.even (i + j + k))]; done.
Qed.
Print Assumptions C101_contacts.

(** The claim that any two spheres that meet are a primitive and a predicate, so that the search is a search for all contacts, is false: with eight ranks, two predicates of
    the ranks 0 and 1 meet. *)
Theorem C101_alternate_refuted : exists N r r' a b, N * N * N = 8 /\ r < 8 /\ r' < 8 /\ Sphere N r true a /\ Sphere N r' true b /\ a <> b /\ Meet a b.
Proof.
  exists 2, 0, 1, (0, 0, 4), (0, 0, 5). do 3 (split; [lia|]).
  assert (forall r a, match build_mesh 2 r with Some (_, preds) => bool_decide (a ∈ preds) | None => false end = true -> Sphere 2 r true a) as H.
  { intros r a H. unfold Sphere. destruct (build_mesh 2 r) as [[prims preds]|]; [|done]. exists prims, preds. split; [done|]. by apply bool_decide_eq_true in H. }
  split; [apply H; vm_compute; reflexivity|]. split; [apply H; vm_compute; reflexivity|]. split; [done|]. unfold Meet. cbn. lia.
Qed.
Print Assumptions C101_alternate_refuted.

(** Eight ranks: rank 5 is at (1, 0, 1); its first primitive and its first predicate meet. *)
Example C101_example : rank_place 2 5 = Some (1, 0, 1) /\ Sphere 2 5 true (5, 0, 5) /\ Sphere 2 5 false (5, 0, 6) /\ Meet (5, 0, 5) (5, 0, 6) /\
  (exists r p, r < 8 /\ Sphere 2 r p (9, 3, 2)) /\ Boundary (9, 3, 2) /\ ~ Boundary (8, 3, 2).
Proof.
  assert (forall r p, rank_place 2 r = Some (1, 0, p) -> forall q i j k, i < 5 -> j < 5 -> k < 5 -> on_surface i j k = true -> is_predicate i j k = q -> Sphere 2 r q (5 + i, j, p * 5 + k)) as H.
  { intros r p HP q i j k Hi Hj Hk Hs Hq. apply (sphere_iff 2 r 1 0 p q _ HP). by exists i, j, k. }
  split; [reflexivity|]. split; [apply (H 5 1 eq_refl true 0 0 0); (lia || reflexivity)|]. split; [apply (H 5 1 eq_refl false 0 0 1); (lia || reflexivity)|]. split; [unfold Meet; cbn; lia|].
  split; [exists 4, false; split; [lia|]; apply (H 4 0 eq_refl false 4 3 2); (lia || reflexivity)|]. split; [left; by right|]. unfold Boundary. cbn. intros [[E|E]|[[E|E]|[E|E]]]; discriminate.
Qed.
