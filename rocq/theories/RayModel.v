(** Rays: /repo/src/geometry/ArborX_Ray.hpp (Ray) and the segment-triangle test of algorithms/ArborX_Intersects.hpp
    (Intersects).  One coordinate type [T] throughout, which is the code for Coordinate = double; for float the code
    computes norms, the quadratic's root and the repeated barycentric coordinates in double. *)
From Verif Require Import Base GeomOps BoxModel ShapeModel.

Section Ray.
Context {T : Type} (O : Ops T) (inf : T) (signbit : T -> bool).
Notation "x + y" := (o_add O x y). Notation "x - y" := (o_sub O x y). Notation "x * y" := (o_mul O x y).
Notation "x / y" := (o_div O x y). Notation "- x" := (o_opp O x). Notation "0" := (o_zero O). Notation "1" := (o_one O).
Notation "x <? y" := (o_ltb O x y). Notation "x <=? y" := (o_leb O x y). Notation "x =? y" := (o_eqb O x y).
Notation p2 := (T * T)%type.
Notation p3 := (T * T * T)%type.

(** Ray:46-55 and misc/ArborX_Vector.hpp:68-87: the constructor normalizes the direction; a zero direction is an
    assertion. *)
Definition norm3 (v : p3) : T := o_sqrt O (dot3 O v v).
Definition normalize (v : p3) : option p3 :=
  let m := norm3 v in if 0 <? m then let '(x, y, z) := v in Some (x / m, y / m, z / m) else None.

(** ** Box *)
(** Ray:122-152: one axis; [None] is the [continue]. *)
Definition ray_axis (o d mn mx : T) : option (T * T) :=
  if d =? 0 then
    let min_orig := mn - o in
    if min_orig =? 0 then None else
    let max_orig := mx - o in
    Some (if signbit (d * max_orig) then inf else - inf, if signbit (d * min_orig) then inf else - inf)
  else if 0 <? d then Some ((mn - o) / d, (mx - o) / d)
  else Some ((mx - o) / d, (mn - o) / d).
(** Ray:117-118, 153-156. *)
Definition narrow (t : T * T) (a : option (T * T)) : T * T :=
  match a with
  | None => t
  | Some (lo, hi) => (if t.1 <? lo then lo else t.1, if hi <? t.2 then hi else t.2)
  end.
Definition ray_box (o d mn mx : p3) : bool * T * T :=
  let '(ox, oy, oz) := o in let '(dx, dy, dz) := d in let '(nx, ny, nz) := mn in let '(xx, xy, xz) := mx in
  let t := narrow (- inf, inf) (ray_axis ox dx nx xx) in
  let t := narrow t (ray_axis oy dy ny xy) in
  let t := narrow t (ray_axis oz dz nz xz) in
  (t.1 <=? t.2, t.1, t.2).
(** Ray:160-167, 435-444. *)
Definition ray_meets_box (o d mn mx : p3) : bool := let '(ok, _, hi) := ray_box o d mn mx in ok && (0 <=? hi).
Definition ray_box_distance (o d mn mx : p3) : T :=
  let '(ok, lo, hi) := ray_box o d mn mx in if ok && (0 <=? hi) then kmax O lo 0 else inf.

(** ** Sphere *)
(** Ray:450-477; [None] is false. *)
Definition four : T := two O * two O.
Definition solve_quadratic (a b c : T) : option (T * T) :=
  let discriminant := b * b - four * a * c in
  if discriminant <? 0 then None else
  if discriminant =? 0 then let x := (- b) / (two O * a) in Some (x, x) else
  let q := if 0 <? b then ((- b) - o_sqrt O discriminant) / two O else ((- b) + o_sqrt O discriminant) / two O in
  Some (q / a, c / q).
(** Ray:496-523. *)
Definition ray_sphere (o d c : p3) (r : T) : bool * T * T :=
  let oc := sub3 O o c in
  let a1 := two O * dot3 O oc d in
  let a0 := dot3 O oc oc - r * r in
  match solve_quadratic 1 a1 a0 with
  | Some (lo, hi) => if hi <? lo then (true, hi, lo) else (true, lo, hi)
  | None => (false, inf, - inf)
  end.
(** Ray:525-549: (length, distance to the origin). *)
Definition overlap (hit : bool * T * T) : T * T :=
  let '(ok, lo, hi) := hit in
  if ok && ((lo <=? hi) && (0 <=? hi)) then let lo := kmax O 0 lo in (hi - lo, lo) else (0, inf).

(** ** Triangle *)
Definition pick (v : p3) (i : nat) : T := let '(x, y, z) := v in match i with 0%nat => x | 1%nat => y | _ => z end.
(** Ray:171-190. *)
Definition largest_comp (v : p3) : nat :=
  let '(x, y, z) := v in
  let '(m, k) := (kabs O x, 0%nat) in
  let '(m, k) := if m <? kabs O y then (kabs O y, 1%nat) else (m, k) in
  if m <? kabs O z then 2%nat else k.
(** Ray:207-222. *)
Definition rotate2D (p : p3) : p2 :=
  let '(x, y, z) := p in
  let r := o_sqrt O (x * x + y * y) in
  (if negb (x =? 0) then (if 0 <? x then 1 else - (1)) * r else (if 0 <? y then 1 else - (1)) * r, z).
(** Ray:230-256; [eps] is 0.00001f.  [None] is false. *)
Definition ray_edge (eps : T) (v1 v2 : p2) : option T :=
  let '(x3, y3) := v1 in let '(x4, y4) := v2 in
  let y2 := if kabs O y4 <? kabs O y3 then y3 else y4 in
  let det := y2 * (x3 - x4) in
  if det =? 0 then None else
  let t := (x3 * y4 - x4 * y3) / det * y2 in
  let u := x3 * y2 / det in
  if (0 - eps <=? u) && (u <=? 1 + eps) then Some t else None.
(** Ray:372-395: the hits of the three edges; Kokkos::min(a, b) is b < a ? b : a and Kokkos::max(a, b) is a < b ? b : a. *)
Definition join_hit (t : T * T) (h : option T) : T * T :=
  match h with None => t | Some x => (kmin O t.1 x, kmax O t.2 x) end.
Definition coplanar (eps2 : T) (A B C : p3) : bool * T * T :=
  let As := rotate2D A in let Bs := rotate2D B in let Cs := rotate2D C in
  let ab := ray_edge eps2 As Bs in let bc := ray_edge eps2 Bs Cs in let ca := ray_edge eps2 Cs As in
  let t := match ab with None => (inf, - inf) | Some x => (x, x) end in
  let t := join_hit (join_hit t bc) ca in
  match ab, bc, ca with
  | None, None, None => (false, t.1, t.2)
  | _, _, _ =>
      if t.1 * t.2 <=? 0 then (true, 0, 0) else if t.1 <? 0 then (true, t.2, t.1) else (true, t.1, t.2)
  end.
(** Ray:272-370, 397-417; [eps1] is 0.0000001f, [eps2] as above. *)
Definition shear (s0 s1 s2 mag : T) (kx ky kz : nat) (v : p3) : p3 :=
  ((pick v kx - s0 * pick v kz) * mag, (pick v ky - s1 * pick v kz) * mag, s2 * pick v kz).
Definition ray_triangle (eps1 eps2 : T) (o d a b c : p3) : bool * T * T :=
  let kz := largest_comp d in
  let kx := ((kz + 1) mod 3)%nat in let ky := ((kz + 2) mod 3)%nat in
  let '(kx, ky) := if pick d kz <? 0 then (ky, kx) else (kx, ky) in
  let s2 := 1 / pick d kz in let s0 := pick d kx * s2 in let s1 := pick d ky * s2 in
  let oA := sub3 O a o in let oB := sub3 O b o in let oC := sub3 O c o in
  let mag := (1 + 1 + 1) / (norm3 oA + norm3 oB + norm3 oC) in
  let A := shear s0 s1 s2 mag kx ky kz oA in let B := shear s0 s1 s2 mag kx ky kz oB in let C := shear s0 s1 s2 mag kx ky kz oC in
  let '(A0, A1, A2) := A in let '(B0, B1, B2) := B in let '(C0, C1, C2) := C in
  let u := C0 * B1 - C1 * B0 in let v := A0 * C1 - A1 * C0 in let w := B0 * A1 - B1 * A0 in
  if ((u <? - eps1) || (v <? - eps1) || (w <? - eps1)) && ((eps1 <? u) || (eps1 <? v) || (eps1 <? w)) then (false, inf, - inf) else
  let det := u + v + w in
  if (det <? - eps1) || (eps1 <? det) then let t := (u * A2 + v * B2 + w * C2) / det in (true, t, t)
  else coplanar eps2 A B C.
(** Ray:419-428. *)
Definition ray_meets_triangle (eps1 eps2 : T) (o d a b c : p3) : bool :=
  let '(ok, _, hi) := ray_triangle eps1 eps2 o d a b c in ok && (0 <=? hi).
(** Intersects:488-505. *)
Definition segment_triangle (eps1 eps2 : T) (p q a b c : p3) : option bool :=
  let dir := sub3 O q p in
  d ← normalize dir;
  let '(_, _, hi) := ray_triangle eps1 eps2 p d a b c in
  Some ((0 <=? hi) && (hi <=? norm3 dir)).
End Ray.
