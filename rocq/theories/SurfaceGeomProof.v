(** The coordinates of the triangulated surfaces over the real numbers. *)
From Coq Require Import Reals Lra Psatz Nsatz.
From Verif Require Import Base GeomOps ShapeModel SurfaceModel SurfaceSpec SurfaceProof SurfaceSplitProof SurfaceEdgeProof SurfaceGeomModel SurfaceGeomSpec PropertiesRayReal.
Local Open Scope R_scope.
Notation P := (R * R * R)%type.
Notation mid := (midpoint ROps).

Lemma mid_coords (p q : P) : (mid p q).1.1 = (p.1.1 + q.1.1) / 2 /\ (mid p q).1.2 = (p.1.2 + q.1.2) / 2 /\ (mid p q).2 = (p.2 + q.2) / 2.
Proof. destruct p as [[a b] c], q as [[d e] f]. unfold midpoint. real_ops. repeat split; field. Qed.
Lemma mid_sym (p q : P) : mid p q = mid q p.
Proof. destruct p as [[a b] c], q as [[d e] f]. unfold midpoint. real_ops. f_equal; [f_equal|]; f_equal; ring. Qed.

Lemma in_rot p a b c : InTriangle p a b c -> InTriangle p b c a.
Proof. intros (u & v & w & Hu & Hv & Hw & Hs & H1 & H2 & H3). exists v, w, u. repeat split; try done; try lra. all: rewrite ?H1, ?H2, ?H3; ring. Qed.
Lemma in_swap p a b c : InTriangle p a b c -> InTriangle p b a c.
Proof. intros (u & v & w & Hu & Hv & Hw & Hs & H1 & H2 & H3). exists v, u, w. repeat split; try done; try lra. all: rewrite ?H1, ?H2, ?H3; ring. Qed.
Ltac intri := repeat split; try lra; rewrite ?(proj1 (mid_coords _ _)), ?(proj1 (proj2 (mid_coords _ _))), ?(proj2 (proj2 (mid_coords _ _))); nra.
Lemma in_split p a b c : InTriangle p a b c <->
  InTriangle p (mid a b) b (mid b c) \/ InTriangle p (mid b c) c (mid c a) \/ InTriangle p (mid c a) a (mid a b) \/ InTriangle p (mid a b) (mid b c) (mid c a).
Proof.
  destruct (mid_coords a b) as (A1 & A2 & A3). destruct (mid_coords b c) as (B1 & B2 & B3). destruct (mid_coords c a) as (C1 & C2 & C3).
  unfold InTriangle. rewrite A1, A2, A3, B1, B2, B3, C1, C2, C3. clear. split.
  - intros (u & v & w & Hu & Hv & Hw & Hs & -> & -> & ->). assert (u = 1 - v - w) as -> by lra. destruct (Rle_dec (1 / 2) v) as [Lv|Lv]; [|destruct (Rle_dec (1 / 2) w) as [Lw|Lw]; [|destruct (Rle_dec (1 / 2) (1 - v - w)) as [Lu|Lu]]].
    + left. exists (2 * (1 - v - w)), (2 * v - 1), (2 * w). repeat split; try lra; field.
    + right. left. exists (2 * v), (2 * w - 1), (2 * (1 - v - w)). repeat split; try lra; field.
    + do 2 right. left. exists (2 * w), (1 - 2 * v - 2 * w), (2 * v). repeat split; try lra; field.
    + do 3 right. exists (1 - 2 * w), (2 * v + 2 * w - 1), (1 - 2 * v). repeat split; try lra; field.
  - intros [H|[H|[H|H]]]; destruct H as (u & v & w & Hu & Hv & Hw & Hs & -> & -> & ->); assert (u = 1 - v - w) as -> by lra.
    + exists ((1 - v - w) / 2), ((1 - v - w) / 2 + v + w / 2), (w / 2). repeat split; try lra; field.
    + exists (w / 2), ((1 - v - w) / 2), ((1 - v - w) / 2 + v + w / 2). repeat split; try lra; field.
    + exists ((1 - v - w) / 2 + v + w / 2), (w / 2), ((1 - v - w) / 2). repeat split; try lra; field.
    + exists ((1 - v - w) / 2 + w / 2), ((1 - v - w) / 2 + v / 2), (v / 2 + w / 2). repeat split; try lra; field.
Qed.

(** Surfaces by their edges *)
Definition OnEdges (vs : list P) (es : list edge) (ts : list tri) (p : P) : Prop :=
  exists t a b c pa pb pc, t ∈ ts /\ tri_at es t a b c /\ vs !! a = Some pa /\ vs !! b = Some pb /\ vs !! c = Some pc /\ InTriangle p pa pb pc.
Lemma tri_at_eq es t a b c a' b' c' : tri_at es t a b c -> tri_at es t a' b' c' -> a = a' /\ b = b' /\ c = c'.
Proof.
  intros [H0 H1 H2 N1 N2 N3] [H0' H1' H2' N1' N2' N3']. destruct (joins_eq _ _ _ _ _ _ H0 H0') as [[? ?]|[? ?]], (joins_eq _ _ _ _ _ _ H1 H1') as [[? ?]|[? ?]], (joins_eq _ _ _ _ _ _ H2 H2') as [[? ?]|[? ?]]; subst; try done; congruence.
Qed.
Lemma perm3 (i j k a b c : nat) : [i; j; k] ≡ₚ [a; b; c] -> NoDup [i; j; k] -> 
  (i = a /\ j = b /\ k = c) \/ (i = a /\ j = c /\ k = b) \/ (i = b /\ j = a /\ k = c) \/ (i = b /\ j = c /\ k = a) \/ (i = c /\ j = a /\ k = b) \/ (i = c /\ j = b /\ k = a).
Proof.
  intros HP HN. assert (i ∈ [a; b; c] /\ j ∈ [a; b; c] /\ k ∈ [a; b; c]) as (Hi & Hj & Hk) by (rewrite <- HP, !elem_of_cons; tauto). rewrite !elem_of_cons, !elem_of_nil in Hi, Hj, Hk.
  rewrite !NoDup_cons, !elem_of_cons, !elem_of_nil in HN. destruct HN as (Ni & Nj & _). assert (i <> j /\ i <> k /\ j <> k) as (? & ? & ?) by tauto. clear HP Ni Nj.
  destruct Hi as [->|[->|[->|[]]]], Hj as [->|[->|[->|[]]]], Hk as [->|[->|[->|[]]]]; tauto.
Qed.
Lemma on_edges vs es vts ets p : Forall2 (same es) vts ets -> OnSurface vs vts p <-> OnEdges vs es ets p.
Proof.
  intros HF. split.
  - intros (i & j & k & pi & pj & pk & Ht & Hi & Hj & Hk & Hp). apply elem_of_list_lookup in Ht as [q Hq]. destruct (same_lookup _ _ _ _ _ HF Hq) as (et & He & a & b & c & HT & HP).
    assert (NoDup [i; j; k]) as HN. { change [i; j; k] with (corners (i, j, k)). rewrite HP. destruct HT as [_ _ _ ? ? ?]. repeat (apply NoDup_cons; split); rewrite ?elem_of_cons, ?elem_of_nil; try apply NoDup_nil_2; naive_solver. }
    assert (forall x y z px py pz, x = a -> y = b -> z = c -> vs !! x = Some px -> vs !! y = Some py -> vs !! z = Some pz -> InTriangle p px py pz -> OnEdges vs es ets p) as Hg.
    { intros x y z px py pz -> -> -> ? ? ? ?. exists et, a, b, c, px, py, pz. split; [by eapply elem_of_list_lookup_2|done]. }
    destruct (perm3 _ _ _ _ _ _ HP HN) as [(-> & -> & ->)|[(-> & -> & ->)|[(-> & -> & ->)|[(-> & -> & ->)|[(-> & -> & ->)|(-> & -> & ->)]]]]]; eapply (Hg a b c); try done.
    + by apply in_swap, in_rot, in_rot. 
    + by apply in_swap.
    + by apply in_rot, in_rot.
    + by apply in_rot.
    + by apply in_swap, in_rot.
  - intros (et & a & b & c & pa & pb & pc & Ht & HT & Ha & Hb & Hc & Hp). apply elem_of_list_lookup in Ht as [q Hq]. destruct (Forall2_lookup_r _ _ _ _ _ HF Hq) as ([[i j] k] & Hv & a' & b' & c' & HT' & HP).
    destruct (tri_at_eq _ _ _ _ _ _ _ _ HT HT') as (<- & <- & <-).
    assert (NoDup [i; j; k]) as HN. { change [i; j; k] with (corners (i, j, k)). rewrite HP. destruct HT as [_ _ _ ? ? ?]. repeat (apply NoDup_cons; split); rewrite ?elem_of_cons, ?elem_of_nil; try apply NoDup_nil_2; naive_solver. }
    apply elem_of_list_lookup_2 in Hv. exists i, j, k.
    destruct (perm3 _ _ _ _ _ _ HP HN) as [(-> & -> & ->)|[(-> & -> & ->)|[(-> & -> & ->)|[(-> & -> & ->)|[(-> & -> & ->)|(-> & -> & ->)]]]]]; do 3 eexists; (split; [done|]); (split; [done|]); (split; [done|]); (split; [done|]).
    + done.
    + by apply in_swap, in_rot, in_rot.
    + by apply in_swap.
    + by apply in_rot.
    + by apply in_rot, in_rot.
    + by apply in_swap, in_rot.
Qed.

Lemma subdivide_on (m m' : mesh P) p : MInv m -> subdivide mid m = Some m' -> OnEdges (m_vertices m') (m_edges m') (m_triangles m') p <-> OnEdges (m_vertices m) (m_edges m) (m_triangles m) p.
Proof.
  intros HI. destruct (new_vertices_ok mid _ _ _ _ HI eq_refl) as (ms & E & L & HM). destruct (split_ok _ _ _ HI) as (rs & Er & HP). unfold subdivide. rewrite E. simpl. rewrite Er. simpl. intros [= <-]. simpl.
  set (vs := m_vertices m) in *. set (es := m_edges m) in *. set (ts := m_triangles m) in *.
  assert (forall v x, vs !! v = Some x -> (vs ++ ms) !! v = Some x) as Hold by (intros; by apply lookup_app_l_Some).
  assert (forall e u v x y, joins es e u v -> vs !! u = Some x -> vs !! v = Some y -> (vs ++ ms) !! (length vs + e)%nat = Some (mid x y)) as Hnew.
  { intros e u v x y Hj Hx Hy. destruct (HM e u v Hj) as (x' & y' & Hx' & Hy' & Hm). rewrite Hx in Hx'. rewrite Hy in Hy'. injection Hx' as <-. injection Hy' as <-. rewrite lookup_app_r by lia.
    replace (length vs + e - length vs)%nat with e by lia. rewrite (mid_sym y x) in Hm. tauto. }
  assert (forall v x y, (vs ++ ms) !! v = Some x -> (vs ++ ms) !! v = Some y -> x = y) as Huq by (intros v x y H1 H2; rewrite H1 in H2; by injection H2).
  split.
  - intros (t' & a' & b' & c' & pa' & pb' & pc' & Ht' & HT' & Ha' & Hb' & Hc' & Hp). apply elem_of_list_lookup in Ht' as [q Hq]. destruct (ts_inv _ _ _ rs HP _ _ Hq) as (k & j & [[e0 e1] e2] & a & b & c & -> & Hj & Ht & HT & Hr & Hpj).
    pose proof HT as [H0 H1 H2 N1 N2 N3]. simpl in H0, H1, H2. destruct (HM _ _ _ H0) as (pa & pb & Ha & Hb & _). destruct (HM _ _ _ H1) as (_ & pc & _ & Hc & _).
    exists (e0, e1, e2), a, b, c, pa, pb, pc. split; [by eapply elem_of_list_lookup_2|]. split; [done|]. split; [done|]. split; [done|]. split; [done|]. apply in_split.
    pose proof (Hnew _ _ _ _ _ H0 Ha Hb) as M0. pose proof (Hnew _ _ _ _ _ H1 Hb Hc) as M1. pose proof (Hnew _ _ _ _ _ H2 Hc Ha) as M2. apply Hold in Ha, Hb, Hc.
    destruct (split_tri_at _ _ _ HI rs HP _ _ _ _ _ _ _ _ _ Ht HT Hr Hpj) as [[_ H]|[[_ H]|[[_ H]|[_ H]]]]; destruct (tri_at_eq _ _ _ _ _ _ _ _ HT' H) as (-> & -> & ->); clear H HT'.
    + left. rewrite (Huq _ _ _ Ha' M0), (Huq _ _ _ Hb' Hb), (Huq _ _ _ Hc' M1) in Hp. done.
    + right. left. rewrite (Huq _ _ _ Ha' M1), (Huq _ _ _ Hb' Hc), (Huq _ _ _ Hc' M2) in Hp. done.
    + right. right. left. rewrite (Huq _ _ _ Ha' M2), (Huq _ _ _ Hb' Ha), (Huq _ _ _ Hc' M0) in Hp. done.
    + right. right. right. rewrite (Huq _ _ _ Ha' M0), (Huq _ _ _ Hb' M1), (Huq _ _ _ Hc' M2) in Hp. done.
  - intros (t & a & b & c & pa & pb & pc & Ht & HT & Ha & Hb & Hc & Hp). apply elem_of_list_lookup in Ht as [k Hk]. pose proof HP as [_ HQ]. destruct (HQ k t Hk) as (a' & b' & c' & HT' & Hr). destruct (tri_at_eq _ _ _ _ _ _ _ _ HT HT') as (<- & <- & <-). clear HT'.
    destruct t as [[e0 e1] e2]. pose proof HT as [H0 H1 H2 N1 N2 N3]. simpl in H0, H1, H2.
    pose proof (Hnew _ _ _ _ _ H0 Ha Hb) as M0. pose proof (Hnew _ _ _ _ _ H1 Hb Hc) as M1. pose proof (Hnew _ _ _ _ _ H2 Hc Ha) as M2. apply Hold in Ha, Hb, Hc.
    assert (forall j, (j < 4)%nat -> exists t', t' ∈ concat (map snd rs) /\ (parts (length vs) es (2 * length es + 3 * k) (e0, e1, e2) a b c).2 !! j = Some t') as Hpart.
    { intros j Hj. pose proof (ts_lookup _ _ _ rs HP k j Hj) as Hl. rewrite Hr in Hl. simpl in Hl. destruct (lookup_lt_is_Some_2 (parts (length vs) es (2 * length es + 3 * k) (e0, e1, e2) a b c).2 j) as [t' Hjt]; [done|]. exists t'. split; [|done].
      apply elem_of_list_lookup_2 with (4 * k + j)%nat. rewrite Hl. exact Hjt. }
    apply in_split in Hp as [Hp|[Hp|[Hp|Hp]]]; [destruct (Hpart 0%nat ltac:(lia)) as (t' & It & Lt)|destruct (Hpart 1%nat ltac:(lia)) as (t' & It & Lt)|destruct (Hpart 2%nat ltac:(lia)) as (t' & It & Lt)|destruct (Hpart 3%nat ltac:(lia)) as (t' & It & Lt)];
      (destruct (split_tri_at _ _ _ HI rs HP _ _ _ _ _ _ _ _ _ Hk HT Hr Lt) as [[? H]|[[? H]|[[? H]|[? H]]]]; try lia); exists t'; do 3 eexists; do 3 eexists; (split; [exact It|]); (split; [exact H|]); done.
Qed.
Lemma refine_on r (m m' : mesh P) p : MInv m -> refine mid r m = Some m' -> OnEdges (m_vertices m') (m_edges m') (m_triangles m') p <-> OnEdges (m_vertices m) (m_edges m) (m_triangles m) p.
Proof.
  intros HI. revert m'. induction r as [|r IH]; intros m' E; [by injection E as <-|]. destruct (refine_ok mid r m HI) as (m1 & E1 & I1 & _). simpl in E. rewrite E1 in E. simpl in E. rewrite (subdivide_on _ _ _ I1 E). by apply IH.
Qed.
Lemma build_on n ts (vs : list P) r vs' ts' p : Surface n ts -> length vs = n -> build mid vs ts r = Some (vs', ts') -> OnSurface vs' ts' p <-> OnSurface vs ts p.
Proof.
  intros HS HL E. destruct (edge_form_ok n ts HS) as (es & ets & Ee & HI & HF). unfold build in E. rewrite Ee in E. subst n. destruct (refine_ok mid r (Mesh vs es ets) HI) as (m & Em & Im & _). rewrite Em in E. simpl in E.
  destruct (vertex_form_ok _ _ _ Im) as (vts & Ev & Fv). rewrite Ev in E. injection E as <- <-. rewrite (on_edges _ _ _ _ _ Fv), (on_edges _ _ _ _ _ HF). by apply (refine_on r (Mesh vs es ets) m p HI Em).
Qed.

(** No vertex of the ball is its centre *)
Lemma in_positive p a b c : InTriangle p a b c -> 0 < dotR a a -> 0 < dotR b b -> 0 < dotR c c -> 0 <= dotR a b -> 0 <= dotR b c -> 0 <= dotR c a -> 0 < dotR p p.
Proof.
  intros (u & v & w & Hu & Hv & Hw & Hs & H1 & H2 & H3) Haa Hbb Hcc Hab Hbc Hca.
  assert (dotR p p = u * u * dotR a a + v * v * dotR b b + w * w * dotR c c + 2 * (u * v) * dotR a b + 2 * (v * w) * dotR b c + 2 * (w * u) * dotR c a) as ->.
  { unfold dotR. rewrite H1, H2, H3. ring. }
  assert (0 <= u * v) by nra. assert (0 <= v * w) by nra. assert (0 <= w * u) by nra.
  assert (0 <= 2 * (u * v) * dotR a b) by nra. assert (0 <= 2 * (v * w) * dotR b c) by nra. assert (0 <= 2 * (w * u) * dotR c a) by nra.
  assert (0 <= u * u * dotR a a) by nra. assert (0 <= v * v * dotR b b) by nra. assert (0 <= w * w * dotR c c) by nra.
  destruct (Rlt_dec 0 u) as [Lu|Lu]; [assert (0 < u * u * dotR a a) by (apply Rmult_lt_0_compat; [nra|done]); lra|]. destruct (Rlt_dec 0 v) as [Lv|Lv]; [assert (0 < v * v * dotR b b) by (apply Rmult_lt_0_compat; [nra|done]); lra|].
  assert (0 < w) by lra. assert (0 < w * w * dotR c c) by (apply Rmult_lt_0_compat; [nra|done]). lra.
Qed.
Lemma icosahedron_positive (a : R) p : 1 < a -> OnSurface (icosahedron_vertices ROps a) icosahedron_triangles p -> 0 < dotR p p.
Proof.
  intros Ha (i & j & k & x & y & z & Ht & Hi & Hj & Hk & Hp). unfold icosahedron_triangles in Ht. rewrite !elem_of_cons, elem_of_nil in Ht.
  repeat (destruct Ht as [[= -> -> ->]|Ht]); [..|done]; simpl in Hi, Hj, Hk; injection Hi as <-; injection Hj as <-; injection Hk as <-; apply (in_positive _ _ _ _ Hp); unfold dotR; real_ops; nra.
Qed.
Lemma project_norm (radius : R) p : 0 <= radius -> 0 < dotR p p -> dotR (project_vertex ROps radius p) (project_vertex ROps radius p) = radius * radius.
Proof.
  destruct p as [[x y] z]. unfold dotR, project_vertex. real_ops. intros Hr Hp. pose proof (sqrt_lt_R0 _ Hp) as Hs. pose proof (sqrt_sqrt _ (Rlt_le _ _ Hp)) as Hq. set (s := R_sqrt.sqrt (x * x + y * y + z * z)) in *.
  transitivity ((x * x + y * y + z * z) * (radius * radius) / (s * s)); [field; lra|]. rewrite Hq. field. lra.
Qed.
Lemma rotate_dist (c s : R) p q : c * c + s * s = 1 -> dist2 (rotate_vertex ROps c s p) (rotate_vertex ROps c s q) = dist2 p q.
Proof.
  intros Hcs. destruct p as [[x y] z], q as [[x' y'] z']. unfold dist2, rotate_vertex, rotation_axis, sub3, cross3, dot3. real_ops. assert (1 + 1 = 2) as -> by lra. assert (0 < R_sqrt.sqrt 2) as Hs by (apply sqrt_lt_R0; lra).
  assert (1 / R_sqrt.sqrt 2 * (1 / R_sqrt.sqrt 2) = 1 / 2) as Hh. { transitivity (1 / (R_sqrt.sqrt 2 * R_sqrt.sqrt 2)); [field; lra|]. rewrite sqrt_sqrt by lra. lra. }
  replace (- (1) / R_sqrt.sqrt 2) with (- (1 / R_sqrt.sqrt 2)) by (field; lra). set (h := 1 / R_sqrt.sqrt 2) in *. clearbody h. clear Hs.
  assert (2 * h * h = 1) as Hh2 by lra. clear Hh. nsatz.
Qed.
Lemma rotate_axis (c s t : R) : rotate_vertex ROps c s (t, - t, 0) = (t, - t, 0).
Proof.
  unfold rotate_vertex, rotation_axis, sub3, cross3, dot3. real_ops. assert (1 + 1 = 2) as -> by lra. assert (0 < R_sqrt.sqrt 2) as Hs by (apply sqrt_lt_R0; lra).
  assert (1 / R_sqrt.sqrt 2 * (1 / R_sqrt.sqrt 2) = 1 / 2) as Hh. { transitivity (1 / (R_sqrt.sqrt 2 * R_sqrt.sqrt 2)); [field; lra|]. rewrite sqrt_sqrt by lra. lra. }
  replace (- (1) / R_sqrt.sqrt 2) with (- (1 / R_sqrt.sqrt 2)) by (field; lra). set (h := 1 / R_sqrt.sqrt 2) in *. clearbody h. clear Hs. assert (2 * h * h = 1) as Hh2 by lra. clear Hh. f_equal; [f_equal|]; nsatz.
Qed.
Lemma rotate_angle (c s : R) p : p.1.1 = p.1.2 -> dotR p (rotate_vertex ROps c s p) = c * dotR p p.
Proof.
  destruct p as [[x y] z]. simpl. intros ->. unfold dotR, rotate_vertex, rotation_axis, sub3, cross3, dot3. real_ops. assert (1 + 1 = 2) as -> by lra. assert (0 < R_sqrt.sqrt 2) as Hs by (apply sqrt_lt_R0; lra).
  replace (- (1) / R_sqrt.sqrt 2) with (- (1 / R_sqrt.sqrt 2)) by (field; lra). set (h := 1 / R_sqrt.sqrt 2) in *. clearbody h. ring.
Qed.
