(** Segments, triangles, tetrahedra and ellipsoids: /repo/src/geometry/algorithms/ArborX_Intersects.hpp (Intersects),
    ArborX_ClosestPoint.hpp (Closest), ArborX_BarycentricCoordinates.hpp (Barycentric), ArborX_Distance.hpp (Distance).
    Points of the plane are pairs, points of space triples. *)
From Verif Require Import Base GeomOps BoxModel.

Section Shape.
Context {T : Type} (O : Ops T).
Notation "x + y" := (o_add O x y). Notation "x - y" := (o_sub O x y). Notation "x * y" := (o_mul O x y).
Notation "x / y" := (o_div O x y). Notation "- x" := (o_opp O x). Notation "0" := (o_zero O). Notation "1" := (o_one O).
Notation "x <? y" := (o_ltb O x y). Notation "x <=? y" := (o_leb O x y). Notation "x =? y" := (o_eqb O x y).
Notation p2 := (T * T)%type.
Notation p3 := (T * T * T)%type.

Definition sub3 (p q : p3) : p3 := let '(a, b, c) := p in let '(d, e, f) := q in (a - d, b - e, c - f).
(** /repo/src/misc/ArborX_Vector.hpp:40-66: dot and cross products. *)
Definition dot3 (p q : p3) : T := let '(a, b, c) := p in let '(d, e, f) := q in 0 + a * d + b * e + c * f.
Definition cross3 (p q : p3) : p3 := let '(a, b, c) := p in let '(d, e, f) := q in (b * f - c * e, c * d - a * f, a * e - b * d).

(** Barycentric:49-84 and Intersects:128-164 (which asserts, rather than aborts on, a zero determinant): [None] is the
    abort. *)
Definition barycentric2 (a b c p : p2) : option (T * T * T) :=
  let '(ax, ay) := a in let '(bx, by_) := b in let '(cx, cy) := c in let '(px, py) := p in
  let u0 := bx - ax in let u1 := by_ - ay in
  let v0 := cx - ax in let v1 := cy - ay in
  let det := v1 * u0 - v0 * u1 in
  if det =? 0 then None else
  let inv_det := 1 / det in
  let alpha0 := v1 * inv_det in let alpha1 := (- v0) * inv_det in
  let beta0 := (- u1) * inv_det in let beta1 := u0 * inv_det in
  let alpha := alpha0 * (px - ax) + alpha1 * (py - ay) in
  let beta := beta0 * (px - ax) + beta1 * (py - ay) in
  Some (1 - alpha - beta, alpha, beta).
Definition intersects_point_triangle (a b c p : p2) : option bool :=
  '(l, m, n) ← barycentric2 a b c p; Some ((0 <=? l) && (0 <=? m) && (0 <=? n)).

(** Barycentric:86-120. *)
Definition triple (u v w : p3) : T := dot3 u (cross3 v w).
Definition barycentric3 (a b c d p : p3) : T * T * T * T :=
  let ap := sub3 p a in let bp := sub3 p b in
  let ab := sub3 b a in let ac := sub3 c a in let ad := sub3 d a in
  let bc := sub3 c b in let bd := sub3 d b in
  let denom := 1 / triple ab ac ad in
  (triple bp bd bc * denom, triple ap ac ad * denom, triple ap ad ab * denom, triple ap ab ac * denom).

(** Intersects:385-391, one face (v0, v1, v2) with opposite vertex v3; the loop of Intersects:371-395. *)
Definition same_half_space (v0 v1 v2 v3 p : p3) : bool :=
  let normal := cross3 (sub3 v1 v0) (sub3 v2 v0) in
  0 <=? dot3 normal (sub3 v3 v0) * dot3 normal (sub3 p v0).
Definition intersects_point_tet (a b c d p : p3) : bool :=
  same_half_space a b c d p && same_half_space b c d a p && same_half_space c d a b p && same_half_space d a b c p.

(** Intersects:405-427. *)
Definition on_segment (s : p2 * p2) (p : p2) : bool :=
  let '((ax, ay), (bx, by_)) := s in let '(px, py) := p in
  (kmin O ax bx <=? px) && (px <=? kmax O ax bx) && (kmin O ay by_ <=? py) && (py <=? kmax O ay by_).
Definition sgn (x : T) : Z := Z.sub (Z.b2z (0 <? x)) (Z.b2z (x <? 0)).
Definition orientation (a b c : p2) : Z :=
  let '(ax, ay) := a in let '(bx, by_) := b in let '(cx, cy) := c in
  sgn ((by_ - ay) * (cx - bx) - (bx - ax) * (cy - by_)).
(** Intersects:429-459. *)
Definition intersects_segment_segment (s1 s2 : p2 * p2) : bool :=
  let o1 := orientation s1.1 s1.2 s2.1 in let o2 := orientation s1.1 s1.2 s2.2 in
  let o3 := orientation s2.1 s2.2 s1.1 in let o4 := orientation s2.1 s2.2 s1.2 in
  if negb (Z.eqb o1 o2) && negb (Z.eqb o3 o4) then true else
  if Z.eqb o1 0%Z && on_segment s1 s2.1 then true else
  if Z.eqb o2 0%Z && on_segment s1 s2.2 then true else
  if Z.eqb o3 0%Z && on_segment s2 s1.1 then true else
  if Z.eqb o4 0%Z && on_segment s2 s1.2 then true else false.
(** Intersects:461-485; the box is (min corner, max corner). *)
Definition in_box2 (p : p2) (mn mx : p2) : bool :=
  negb ((mx.1 <? p.1) || (p.1 <? mn.1)) && negb ((mx.2 <? p.2) || (p.2 <? mn.2)).
Definition intersects_segment_box (s : p2 * p2) (mn mx : p2) : bool :=
  if in_box2 s.1 mn mx || in_box2 s.2 mn mx then true else
  let top_left := (mn.1, mx.2) in let bottom_right := (mx.1, mn.2) in
  intersects_segment_segment s (mn, top_left) || intersects_segment_segment s (mn, bottom_right) ||
  intersects_segment_segment s (mx, top_left) || intersects_segment_segment s (mx, bottom_right).

(** Closest:169-193 in space: Details::equals compares coordinates; Kokkos::clamp(v, lo, hi) is
    v < lo ? lo : (hi < v ? hi : v). *)
Definition equals3 (p q : p3) : bool := let '(a, b, c) := p in let '(d, e, f) := q in (a =? d) && (b =? e) && (c =? f).
Definition clamp (v lo hi : T) : T := if v <? lo then lo else if hi <? v then hi else v.
Definition closest_segment (p a b : p3) : p3 :=
  if equals3 a b then a else
  let dir := sub3 b a in
  let t := clamp (dot3 dir (sub3 p a) / dot3 dir dir) 0 1 in
  let '(ax, ay, az) := a in let '(dx, dy, dz) := dir in
  (ax + t * dx, ay + t * dy, az + t * dz).
(** Closest:69-153. *)
Definition combine (a b c : p3) (u v w : T) : p3 :=
  let '(ax, ay, az) := a in let '(bx, by_, bz) := b in let '(cx, cy, cz) := c in
  (u * ax + v * bx + w * cx, u * ay + v * by_ + w * cy, u * az + v * bz + w * cz).
Definition closest_triangle (p a b c : p3) : p3 :=
  let ab := sub3 b a in let ac := sub3 c a in let ap := sub3 p a in
  let d1 := dot3 ab ap in let d2 := dot3 ac ap in
  if (d1 <=? 0) && (d2 <=? 0) then a else
  let bp := sub3 p b in
  let d3 := dot3 ab bp in let d4 := dot3 ac bp in
  if (0 <=? d3) && (d4 <=? d3) then b else
  let cp := sub3 p c in
  let d5 := dot3 ab cp in let d6 := dot3 ac cp in
  if (0 <=? d6) && (d5 <=? d6) then c else
  let vc := d1 * d4 - d3 * d2 in
  if (vc <=? 0) && (0 <=? d1) && (d3 <=? 0) then let v := d1 / (d1 - d3) in combine a b c (1 - v) v 0 else
  let vb := d5 * d2 - d1 * d6 in
  if (vb <=? 0) && (0 <=? d2) && (d6 <=? 0) then let v := d2 / (d2 - d6) in combine a b c (1 - v) 0 v else
  let va := d3 * d6 - d5 * d4 in
  if (va <=? 0) && (0 <=? d4 - d3) && (0 <=? d5 - d6) then
    let v := (d4 - d3) / ((d4 - d3) + (d5 - d6)) in combine a b c 0 (1 - v) v else
  let denom := 1 / (va + vb + vc) in
  let v := vb * denom in let w := vc * denom in
  combine a b c (1 - v - w) v w.

(** Distance:126-159: the point of the tetrahedron's surface the code measures the distance to; [None] is distance 0
    (the code compares with the largest finite value instead). *)
Definition tet_closest (v0 v1 v2 v3 p : p3) : list p3 :=
  let face a b c d := if same_half_space a b c d p then [] else [closest_triangle p a b c] in
  face v0 v1 v2 v3 ++ face v1 v2 v3 v0 ++ face v2 v3 v0 v1 ++ face v3 v0 v1 v2.
Definition dist2_3 (p q : p3) : T := let d := sub3 p q in dot3 d d.

(** Intersects:167-315, box with corners [mn], [mx] against a triangle in space. *)
Definition kabs (x : T) : T := if x <? 0 then - x else x.
Definition two : T := 1 + 1.
(** One of the nine blocks: reject if both projections are beyond the radius on the same side (fmin/fmax). *)
Definition axis_ok (radius x y : T) : bool := negb ((radius <? kmin O x y) || (kmax O x y <? - radius)).
Definition box_triangle_bounds (mn mx a b c : p3) : bool :=
  let '(ax, ay, az) := a in let '(bx, by_, bz) := b in let '(cx, cy, cz) := c in
  let '(nx, ny, nz) := mn in let '(xx, xy, xz) := mx in
  let lo u v w := kmin O (kmin O u v) w in let hi u v w := kmax O (kmax O u v) w in
  intersects_bb O [(lo ax bx cx, hi ax bx cx); (lo ay by_ cy, hi ay by_ cy); (lo az bz cz, hi az bz cz)]
    [(nx, xx); (ny, xy); (nz, xz)].
Definition box_triangle_axes (e0 e1 e2 : T) (a b c : p3) : list bool :=
  let '(a0, a1, a2) := a in let '(b0, b1, b2) := b in let '(c0, c1, c2) := c in
  let '(ab0, ab1, ab2) := sub3 b a in let '(ac0, ac1, ac2) := sub3 c a in let '(bc0, bc1, bc2) := sub3 c b in
  let '(n0, n1, n2) := cross3 (sub3 b a) (sub3 c a) in
  [ negb (e0 * kabs n0 + e1 * kabs n1 + e2 * kabs n2 <? kabs (a0 * n0 + a1 * n1 + a2 * n2));
    axis_ok (e1 * kabs ab2 + e2 * kabs ab1) ((- a1) * ab2 + a2 * ab1) ((- c1) * ab2 + c2 * ab1);
    axis_ok (e1 * kabs ac2 + e2 * kabs ac1) ((- a1) * ac2 + a2 * ac1) ((- b1) * ac2 + b2 * ac1);
    axis_ok (e1 * kabs bc2 + e2 * kabs bc1) ((- a1) * bc2 + a2 * bc1) ((- b1) * bc2 + b2 * bc1);
    axis_ok (e0 * kabs ab2 + e2 * kabs ab0) (a0 * ab2 - a2 * ab0) (c0 * ab2 - c2 * ab0);
    axis_ok (e0 * kabs ac2 + e2 * kabs ac0) (a0 * ac2 - a2 * ac0) (b0 * ac2 - b2 * ac0);
    axis_ok (e0 * kabs bc2 + e2 * kabs bc0) (a1 * bc2 - a2 * bc0) (b1 * bc2 - b2 * bc0);
    axis_ok (e0 * kabs ab1 + e1 * kabs ab0) ((- a0) * ab1 + a1 * ab0) ((- c0) * ab1 + c1 * ab0);
    axis_ok (e0 * kabs ac1 + e1 * kabs ac0) ((- a0) * ac1 + a1 * ac0) ((- b0) * ac1 + b1 * ac0);
    axis_ok (e0 * kabs bc1 + e1 * kabs bc0) ((- a0) * bc1 + a1 * bc0) ((- b0) * bc1 + b1 * bc0) ].
Definition shift3 (s p : p3) : p3 := let '(a, b, c) := p in let '(d, e, f) := s in (a + d, b + e, c + f).
Definition box_triangle_tests (mn mx a b c : p3) : list bool :=
  let '(nx, ny, nz) := mn in let '(xx, xy, xz) := mx in
  let s := ((- (xx + nx)) / two, (- (xy + ny)) / two, (- (xz + nz)) / two) in
  box_triangle_bounds mn mx a b c ::
  box_triangle_axes ((xx - nx) / two) ((xy - ny) / two) ((xz - nz) / two) (shift3 s a) (shift3 s b) (shift3 s c).
Definition intersects_box_triangle (mn mx a b c : p3) : bool := forallb id (box_triangle_tests mn mx a b c).

(** Intersects:508-521: x^t R y, accumulated from 0. *)
Definition rmt2 (x : p2) (R : p2 * p2) (y : p2) : T :=
  let '(x0, x1) := x in let '(y0, y1) := y in let '((r00, r01), (r10, r11)) := R in
  0 + x0 * r00 * y0 + x0 * r01 * y1 + x1 * r10 * y0 + x1 * r11 * y1.
Definition rmt3 (x : p3) (R : p3 * p3 * p3) (y : p3) : T :=
  let '(x0, x1, x2) := x in let '(y0, y1, y2) := y in let '((r00, r01, r02), (r10, r11, r12), (r20, r21, r22)) := R in
  0 + x0 * r00 * y0 + x0 * r01 * y1 + x0 * r02 * y2 + x1 * r10 * y0 + x1 * r11 * y1 + x1 * r12 * y2 +
  x2 * r20 * y0 + x2 * r21 * y1 + x2 * r22 * y2.
Definition sub2 (p q : p2) : p2 := (p.1 - q.1, p.2 - q.2).
Definition equals2 (p q : p2) : bool := (p.1 =? q.1) && (p.2 =? q.2).
(** Intersects:523-532 point, 534-572 segment (the quadratic along the segment, [A t^2 + 2 B t + C]). *)
Definition ellipsoid_point2 (c : p2) (R : p2 * p2) (p : p2) : bool := let d := sub2 p c in rmt2 d R d <=? 1.
Definition ellipsoid_point3 (c : p3) (R : p3 * p3 * p3) (p : p3) : bool := let d := sub3 p c in rmt3 d R d <=? 1.
Definition quadratic (A B C : T) : bool := let t := clamp ((- B) / A) 0 1 in A * t * t + two * B * t + C <=? 1.
Definition ellipsoid_segment2 (c : p2) (R : p2 * p2) (a b : p2) : bool :=
  if equals2 a b then ellipsoid_point2 c R a else
  let ab := sub2 b a in let ca := sub2 a c in quadratic (rmt2 ab R ab) (rmt2 ca R ab) (rmt2 ca R ca).
Definition ellipsoid_segment3 (c : p3) (R : p3 * p3 * p3) (a b : p3) : bool :=
  if equals3 a b then ellipsoid_point3 c R a else
  let ab := sub3 b a in let ca := sub3 a c in quadratic (rmt3 ab R ab) (rmt3 ca R ab) (rmt3 ca R ca).
(** Intersects:574-614: a face spanned by ab and ac. *)
Definition ellipsoid_face (c0 : p3) (R : p3 * p3 * p3) (a b c : p3) : bool :=
  if equals3 a b then ellipsoid_segment3 c0 R a c else
  if equals3 a c then ellipsoid_segment3 c0 R a b else
  if equals3 b c then ellipsoid_segment3 c0 R b a else
  let ab := sub3 b a in let ac := sub3 c a in let c0a := sub3 a c0 in
  let A11 := rmt3 ac R ac in let A12 := rmt3 ab R ac in let A22 := rmt3 ab R ab in
  let B1 := rmt3 c0a R ac in let B2 := rmt3 c0a R ab in let C := rmt3 c0a R c0a in
  let s := (A12 * B1 - A11 * B2) / (A11 * A22 - A12 * A12) in
  let t := (A12 * B2 - A22 * B1) / (A11 * A22 - A12 * A12) in
  let t := clamp t 0 1 in let s := clamp s 0 1 in
  A11 * t * t + two * A12 * t * s + A22 * s * s + two * B1 * t + two * B2 * s + C <=? 1.
(** Intersects:616-666, without the special case of a sphere (handled by the sphere test, see C37). *)
Definition ellipsoid_box2 (c : p2) (R : p2 * p2) (mn mx : p2) : bool :=
  in_box2 c mn mx ||
  (ellipsoid_segment2 c R mn (mn.1, mx.2) || ellipsoid_segment2 c R mn (mx.1, mn.2) ||
   ellipsoid_segment2 c R mx (mn.1, mx.2) || ellipsoid_segment2 c R mx (mx.1, mn.2)).
Definition in_box3 (p mn mx : p3) : bool :=
  let '(px, py, pz) := p in let '(nx, ny, nz) := mn in let '(xx, xy, xz) := mx in
  intersects_pb O [px; py; pz] [(nx, xx); (ny, xy); (nz, xz)].
Definition ellipsoid_box3 (c : p3) (R : p3 * p3 * p3) (mn mx : p3) : bool :=
  let '(nx, ny, nz) := mn in let '(xx, xy, xz) := mx in
  in_box3 c mn mx ||
  (ellipsoid_face c R mn (xx, ny, nz) (nx, xy, nz) || ellipsoid_face c R mn (xx, ny, nz) (nx, ny, xz) ||
   ellipsoid_face c R mn (nx, xy, nz) (nx, ny, xz) || ellipsoid_face c R mx (nx, xy, xz) (xx, ny, xz) ||
   ellipsoid_face c R mx (nx, xy, xz) (xx, xy, nz) || ellipsoid_face c R mx (xx, ny, xz) (xx, xy, nz)).
Definition is_sphere3 (R : p3 * p3 * p3) : bool :=
  let '((r00, r01, r02), (r10, r11, r12), (r20, r21, r22)) := R in
  (r00 =? r11) && (r01 =? 0) && (r00 =? r22) && (r02 =? 0) && (r12 =? 0).
End Shape.
