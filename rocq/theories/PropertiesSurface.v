(** C83, C84: the triangulated surfaces of the distance benchmark. *)
From Coq Require Import Reals Lra.
From Verif Require Import Base GeomOps ShapeModel SurfaceModel SurfaceSpec SurfaceProof SurfaceEdgeProof SurfaceCheckProof SurfaceGeomModel SurfaceGeomSpec SurfaceGeomProof PropertiesRayReal.
Local Open Scope nat_scope.

(** Any surface, refined any number of times, is a surface again; without boundary if it was, and connected if it was. *)
Theorem C83_surface {P : Type} (mid : P -> P -> P) (vs : list P) (ts : list (nat * nat * nat)) (r : nat) :
  Surface (length vs) ts ->
  exists vs' ts', build mid vs ts r = Some (vs', ts') /\ Surface (length vs') ts' /\ length ts' = 4 ^ r * length ts /\ (Closed ts -> Closed ts') /\ (Connected ts -> Connected ts').
Proof. intros HS. destruct (build_ok mid _ ts vs r HS eq_refl) as (vs' & ts' & ? & ? & ? & _ & ? & ?). by exists vs', ts'. Qed.
Print Assumptions C83_surface.
Example C83_surface_example : Surface 4 [(0, 1, 2); (0, 2, 3); (0, 3, 1); (1, 3, 2)] /\ Closed [(0, 1, 2); (0, 2, 3); (0, 3, 1); (1, 3, 2)] /\
  build (fun _ _ : unit => tt) (replicate 4 tt) [(0, 1, 2); (1, 2, 3)] 1 =
    Some (replicate 9 tt, [(1, 4, 5); (2, 5, 6); (0, 6, 4); (4, 5, 6); (2, 5, 7); (3, 7, 8); (1, 8, 5); (5, 7, 8)]).
Proof.
  split; [apply surfaceb_ok; vm_compute; reflexivity|]. split; [apply (closedb_ok 4); [apply surfaceb_ok|]; vm_compute; reflexivity|]. vm_compute. reflexivity.
Qed.

Lemma icosahedron_surface : Surface 12 icosahedron_triangles /\ Closed icosahedron_triangles /\ Connected icosahedron_triangles.
Proof.
  assert (Surface 12 icosahedron_triangles) as HS by (apply surfaceb_ok; vm_compute; reflexivity). split; [done|]. split; [apply (closedb_ok 12); [done|vm_compute; reflexivity]|apply connectedb_ok; vm_compute; reflexivity].
Qed.
Lemma plane_surface : Surface 16 plane_triangles /\ Connected plane_triangles.
Proof. split; [apply surfaceb_ok; vm_compute; reflexivity|apply connectedb_ok; vm_compute; reflexivity]. Qed.
Theorem C83_ball {T : Type} (O : Ops T) (a radius : T) (r : nat) :
  exists vs ts, build_ball O a radius r = Some (vs, ts) /\ Surface (length vs) ts /\ Closed ts /\ Connected ts /\ length vs = 10 * 4 ^ r + 2 /\ length ts = 20 * 4 ^ r.
Proof.
  destruct icosahedron_surface as (HS & HC & HN). destruct (build_ok (midpoint O) 12 icosahedron_triangles (icosahedron_vertices O a) r HS eq_refl) as (vs & ts & E & S' & L & V & C' & N'). unfold build_ball. rewrite E. simpl.
  exists (map (project_vertex O radius) vs), ts. rewrite map_length. split; [done|]. split; [done|]. split; [by apply C'|]. split; [by apply N'|].
  assert (length (edge_form icosahedron_triangles).1 = 30) as H30 by (vm_compute; reflexivity). rewrite H30 in V. simpl length in L, V. split; [|lia]. nia.
Qed.
Print Assumptions C83_ball.
Example C83_ball_example : match build_ball QOps (QArith_base.Qmake 8 5) (QArith_base.Qmake 1 1) 1 with Some (vs, ts) => (length vs, length ts, closedb 42 ts, take 4 ts) | None => (0, 0, false, []) end =
  (42, 80, true, [(1, 12, 13); (0, 13, 14); (2, 14, 12); (12, 13, 14)]).
Proof. vm_compute. reflexivity. Qed.
Theorem C83_plane {T : Type} (O : Ops T) (r : nat) :
  exists vs ts, build_plane O r = Some (vs, ts) /\ Surface (length vs) ts /\ Connected ts /\ length vs = (3 * 2 ^ r + 1) * (3 * 2 ^ r + 1) /\ length ts = 18 * 4 ^ r.
Proof.
  destruct plane_surface as (HS & HN). destruct (build_ok (midpoint O) 16 plane_triangles (plane_vertices O) r HS eq_refl) as (vs & ts & E & S' & L & V & _ & N'). unfold build_plane. rewrite E.
  exists vs, ts. split; [done|]. split; [done|]. split; [by apply N'|].
  assert (length (edge_form plane_triangles).1 = 33) as H33 by (vm_compute; reflexivity). rewrite H33 in V. simpl length in L, V. split; [|lia]. assert (4 ^ r = 2 ^ r * 2 ^ r) as E4 by (rewrite <- Nat.pow_mul_l; done). rewrite E4 in V. nia.
Qed.
Print Assumptions C83_plane.
Example C83_plane_example : match build_plane QOps 1 with Some (vs, ts) => (length vs, length ts, around ts 0 16, around ts 16 17) | None => (0, 0, 0, 0) end = (49, 72, 1, 2).
Proof. vm_compute. reflexivity. Qed.

Local Open Scope R_scope.
(** With the golden ratio, the solid is regular: all its triangles are equilateral with sides of length 2. *)
Theorem C84_regular (a : R) i j k : a * a = a + 1 -> (i, j, k) ∈ icosahedron_triangles ->
  exists p q s, icosahedron_vertices ROps a !! i = Some p /\ icosahedron_vertices ROps a !! j = Some q /\ icosahedron_vertices ROps a !! k = Some s /\
    dist2 p q = 4 /\ dist2 q s = 4 /\ dist2 s p = 4.
Proof.
  intros Ha H. unfold icosahedron_triangles in H.
  repeat (apply elem_of_cons in H as [E|H]; [injection E as -> -> ->; do 3 eexists; (split; [reflexivity|]); (split; [reflexivity|]); (split; [reflexivity|]); unfold dist2; real_ops; simpl fst; simpl snd; repeat split; nra|]).
  by apply elem_of_nil in H.
Qed.
Example C84_regular_example : let a := (1 + R_sqrt.sqrt 5) / 2 in a * a = a + 1.
Proof. simpl. pose proof (sqrt_sqrt 5 ltac:(lra)). lra. Qed.
(** Refining changes the triangles, but not the points on the surface. *)
Theorem C84_same_points (vs : list (R * R * R)) (ts : list (nat * nat * nat)) (r : nat) vs' ts' p :
  Surface (length vs) ts -> build (midpoint ROps) vs ts r = Some (vs', ts') -> OnSurface vs' ts' p <-> OnSurface vs ts p.
Proof. intros HS E. by apply (build_on (length vs) ts vs r vs' ts' p HS eq_refl). Qed.
Print Assumptions C84_same_points.
Theorem C84_ball (a radius : R) (r : nat) vs ts v : 1 < a -> 0 <= radius -> build_ball ROps a radius r = Some (vs, ts) -> v ∈ vs -> dist2 v (0, 0, 0) = radius * radius.
Proof.
  intros Ha Hr E Hv. unfold build_ball in E. destruct (build (midpoint ROps) (icosahedron_vertices ROps a) icosahedron_triangles r) as [[vs0 ts0]|] eqn:E0; [|done]. injection E as <- <-. simpl in Hv.
  apply elem_of_list_fmap in Hv as (p & -> & Hp). destruct icosahedron_surface as (HS & _). destruct (build_ok (midpoint ROps) 12 icosahedron_triangles (icosahedron_vertices ROps a) r HS eq_refl) as (vs1 & ts1 & E1 & S1 & _). rewrite E0 in E1. injection E1 as <- <-.
  transitivity (dotR (project_vertex ROps radius p) (project_vertex ROps radius p)); [unfold dist2, dotR; simpl; ring|]. apply project_norm; [done|]. apply (icosahedron_positive a); [done|].
  apply (build_on 12 icosahedron_triangles (icosahedron_vertices ROps a) r vs0 ts0 p HS eq_refl E0). apply elem_of_list_lookup in Hp as [i Hi]. destruct (su_used _ _ S1 i ltac:(by eapply lookup_lt_Some)) as ([[x y] z] & Ht & Hc).
  destruct (lookup_lt_is_Some_2 vs0 x) as [px Hx]; [eapply (su_range _ _ S1); [exact Ht|simpl; rewrite !elem_of_cons; tauto]|]. destruct (lookup_lt_is_Some_2 vs0 y) as [py Hy]; [eapply (su_range _ _ S1); [exact Ht|simpl; rewrite !elem_of_cons; tauto]|].
  destruct (lookup_lt_is_Some_2 vs0 z) as [pz Hz]; [eapply (su_range _ _ S1); [exact Ht|simpl; rewrite !elem_of_cons; tauto]|].
  exists x, y, z, px, py, pz. split; [done|]. split; [done|]. split; [done|]. split; [done|]. simpl in Hc. rewrite !elem_of_cons, elem_of_nil in Hc.
  destruct Hc as [->|[->|[->|[]]]]; [rewrite Hx in Hi|rewrite Hy in Hi|rewrite Hz in Hi]; injection Hi as ->; [exists 1, 0, 0|exists 0, 1, 0|exists 0, 0, 1]; repeat split; try lra; ring.
Qed.
Print Assumptions C84_ball.
Ltac cell_tac := real_ops; repeat split; lra.
Theorem C84_plane (r : nat) vs ts p : build_plane ROps r = Some (vs, ts) -> OnSurface vs ts p <-> 0 <= p.1.1 <= 3 /\ 0 <= p.1.2 <= 3 /\ p.2 = 0.
Proof.
  intros E. destruct plane_surface as [HS _]. rewrite (build_on 16 plane_triangles (plane_vertices ROps) r vs ts p HS eq_refl E). clear. destruct p as [[x y] z]. unfold OnSurface, InTriangle. simpl. split.
  - intros (i & j & k & a & b & c & Ht & Hi & Hj & Hk & u & v & w & Hu & Hv & Hw & Hs & H1 & H2 & H3). unfold plane_triangles in Ht. rewrite !elem_of_cons, elem_of_nil in Ht.
    repeat (destruct Ht as [[= -> -> ->]|Ht]); [..|done]; simpl in Hi, Hj, Hk; injection Hi as <-; injection Hj as <-; injection Hk as <-; real_ops; lra.
  - intros (Hx & Hy & ->).
    assert (forall n : nat, (n < 18)%nat -> match plane_triangles !! n with Some (i, j, k) => match plane_vertices ROps !! i, plane_vertices ROps !! j, plane_vertices ROps !! k with Some a, Some b, Some c =>
        (exists u v w, 0 <= u /\ 0 <= v /\ 0 <= w /\ u + v + w = 1 /\ x = u * a.1.1 + v * b.1.1 + w * c.1.1 /\ y = u * a.1.2 + v * b.1.2 + w * c.1.2 /\ 0 = u * a.2 + v * b.2 + w * c.2) ->
        exists i j k a b c, (i, j, k) ∈ plane_triangles /\ plane_vertices ROps !! i = Some a /\ plane_vertices ROps !! j = Some b /\ plane_vertices ROps !! k = Some c /\
          exists u v w, 0 <= u /\ 0 <= v /\ 0 <= w /\ u + v + w = 1 /\ x = u * a.1.1 + v * b.1.1 + w * c.1.1 /\ y = u * a.1.2 + v * b.1.2 + w * c.1.2 /\ 0 = u * a.2 + v * b.2 + w * c.2 | _, _, _ => True end | None => True end) as Hg.
    { intros n _. destruct (plane_triangles !! n) as [[[i j] k]|] eqn:En; [|done]. apply elem_of_list_lookup_2 in En. destruct (plane_vertices ROps !! i) as [a|] eqn:Ea; [|done]. destruct (plane_vertices ROps !! j) as [b|] eqn:Eb; [|done].
      destruct (plane_vertices ROps !! k) as [c|] eqn:Ec; [|done]. intros H. by exists i, j, k, a, b, c. }
    destruct (Rle_dec x 1); [destruct (Rle_dec y 1); [destruct (Rle_dec ((x - 0) + (y - 0)) 1);
        [apply (Hg 0%nat ltac:(lia)); exists (1 - (x - 0) - (y - 0)), (x - 0), (y - 0); cell_tac|apply (Hg 1%nat ltac:(lia)); exists (1 - (y - 0)), ((x - 0) + (y - 0) - 1), (1 - (x - 0)); cell_tac]|destruct (Rle_dec y 2); [destruct (Rle_dec ((x - 0) + (y - 1)) 1);
        [apply (Hg 6%nat ltac:(lia)); exists (1 - (x - 0) - (y - 1)), (x - 0), (y - 1); cell_tac|apply (Hg 7%nat ltac:(lia)); exists (1 - (y - 1)), ((x - 0) + (y - 1) - 1), (1 - (x - 0)); cell_tac]|destruct (Rle_dec ((x - 0) + (y - 2)) 1);
        [apply (Hg 12%nat ltac:(lia)); exists (1 - (x - 0) - (y - 2)), (x - 0), (y - 2); cell_tac|apply (Hg 13%nat ltac:(lia)); exists (1 - (y - 2)), ((x - 0) + (y - 2) - 1), (1 - (x - 0)); cell_tac]]]|
    destruct (Rle_dec x 2); [destruct (Rle_dec y 1); [destruct (Rle_dec ((x - 1) + (y - 0)) 1);
        [apply (Hg 2%nat ltac:(lia)); exists (1 - (x - 1) - (y - 0)), (x - 1), (y - 0); cell_tac|apply (Hg 3%nat ltac:(lia)); exists (1 - (y - 0)), ((x - 1) + (y - 0) - 1), (1 - (x - 1)); cell_tac]|destruct (Rle_dec y 2); [destruct (Rle_dec ((x - 1) + (y - 1)) 1);
        [apply (Hg 8%nat ltac:(lia)); exists (1 - (x - 1) - (y - 1)), (x - 1), (y - 1); cell_tac|apply (Hg 9%nat ltac:(lia)); exists (1 - (y - 1)), ((x - 1) + (y - 1) - 1), (1 - (x - 1)); cell_tac]|destruct (Rle_dec ((x - 1) + (y - 2)) 1);
        [apply (Hg 14%nat ltac:(lia)); exists (1 - (x - 1) - (y - 2)), (x - 1), (y - 2); cell_tac|apply (Hg 15%nat ltac:(lia)); exists (1 - (y - 2)), ((x - 1) + (y - 2) - 1), (1 - (x - 1)); cell_tac]]]|
    destruct (Rle_dec y 1); [destruct (Rle_dec ((x - 2) + (y - 0)) 1);
        [apply (Hg 4%nat ltac:(lia)); exists (1 - (x - 2) - (y - 0)), (x - 2), (y - 0); cell_tac|apply (Hg 5%nat ltac:(lia)); exists (1 - (y - 0)), ((x - 2) + (y - 0) - 1), (1 - (x - 2)); cell_tac]|destruct (Rle_dec y 2); [destruct (Rle_dec ((x - 2) + (y - 1)) 1);
        [apply (Hg 10%nat ltac:(lia)); exists (1 - (x - 2) - (y - 1)), (x - 2), (y - 1); cell_tac|apply (Hg 11%nat ltac:(lia)); exists (1 - (y - 1)), ((x - 2) + (y - 1) - 1), (1 - (x - 2)); cell_tac]|destruct (Rle_dec ((x - 2) + (y - 2)) 1);
        [apply (Hg 16%nat ltac:(lia)); exists (1 - (x - 2) - (y - 2)), (x - 2), (y - 2); cell_tac|apply (Hg 17%nat ltac:(lia)); exists (1 - (y - 2)), ((x - 2) + (y - 2) - 1), (1 - (x - 2)); cell_tac]]]]].
Qed.
Print Assumptions C84_plane.
Theorem C84_rotate (c s : R) : c * c + s * s = 1 ->
  (forall p q, dist2 (rotate_vertex ROps c s p) (rotate_vertex ROps c s q) = dist2 p q) /\ (forall t, rotate_vertex ROps c s (t, - t, 0) = (t, - t, 0)) /\
  (forall p, p.1.1 = p.1.2 -> dotR p (rotate_vertex ROps c s p) = c * dotR p p).
Proof. intros H. split; [intros p q; by apply rotate_dist|]. split; [intros t; apply rotate_axis|intros p Hp; by apply rotate_angle]. Qed.
Print Assumptions C84_rotate.
Print Assumptions C84_regular.

(** The golden ratio and a triangle whose points are on a refined surface; the quarter turn about the axis takes (1, -1, 0) to itself. *)
Example C84_example : (exists vs ts, build (midpoint ROps) [(0, 0, 0); (2, 0, 0); (0, 2, 0)] [(0, 1, 2)]%nat 1 = Some (vs, ts) /\ ts = [(1, 3, 4); (2, 4, 5); (0, 5, 3); (3, 4, 5)]%nat /\ length vs = 6%nat) /\
  Surface 3 [(0, 1, 2)]%nat /\ 1 < 1618 / 1000 /\ (exists vs ts, build_ball ROps (1618 / 1000) 2 3 = Some (vs, ts) /\ length vs = 642%nat) /\ 0 * 0 + 1 * 1 = 1.
Proof.
  split; [do 2 eexists; split; [reflexivity|done]|]. split; [apply surfaceb_ok; vm_compute; reflexivity|]. split; [lra|]. split; [|ring].
  destruct (C83_ball ROps (1618 / 1000) 2 3) as (vs & ts & E & _ & _ & _ & L & _). exists vs, ts. split; [exact E|exact L].
Qed.
