(** Model of src/spatial/detail/ArborX_MortonCode.hpp (integer part) on [N] with explicit
    32/64-bit wrap-around, and of the coordinate-to-cell map over exact rationals. *)
From Verif Require Export Base.
From Coq Require Export NArith QArith Qround Lqa.
Local Open Scope N_scope.

Definition wrap (w : N) (x : N) : N := N.land x (N.ones w).

(** One source line: [x = (x OP (x << s)) & m] in a [w]-bit unsigned type; OP is xor for
    the 32-bit N=1,2 specialisations and or elsewhere. *)
Inductive bitop := OpXor | OpOr.
Definition bop (o : bitop) : N -> N -> N := match o with OpXor => N.lxor | OpOr => N.lor end.
Definition stage (w : N) (o : bitop) (x : N) (sm : N * N) : N :=
  N.land (bop o x (wrap w (N.shiftl x (fst sm)))) (snd sm).

(** A whole expandBitsBy body: [x &= m0] followed by its stages. *)
Definition expand (w : N) (o : bitop) (m0 : N) (stages : list (N * N)) (x : N) : N :=
  fold_left (stage w o) stages (N.land x m0).

(** ArborX_MortonCode.hpp:44-156, the 32-bit overload. [n] is the template argument N; 10 and
    above hit the static_assert (modelled as 0, never used by a theorem). *)
Definition expandBitsBy32 (n : nat) (x : N) : N :=
  match n with
  | 0%nat => x (* 44-48 *)
  | 1%nat => expand 32 OpXor 0x0000ffff [(8, 0x00ff00ff); (4, 0x0f0f0f0f); (2, 0x33333333); (1, 0x55555555)] x (* 51-60 *)
  | 2%nat => expand 32 OpXor 0x000003ff [(16, 0xff0000ff); (8, 0x0300f00f); (4, 0x030c30c3); (2, 0x09249249)] x (* 63-72 *)
  | 3%nat => expand 32 OpOr 0xff [(16, 0xc0003f); (8, 0xc03807); (4, 0x8430843); (2, 0x9090909); (1, 0x11111111)] x (* 75-85 *)
  | 4%nat => expand 32 OpOr 0x3f [(16, 0x30000f); (8, 0x300c03); (4, 0x2108421)] x (* 88-96 *)
  | 5%nat => expand 32 OpOr 0x1f [(16, 0x10000f); (8, 0x100c03); (4, 0x1008421); (2, 0x1021021); (1, 0x1041041)] x (* 99-109 *)
  | 6%nat => expand 32 OpOr 0xf [(16, 0x80007); (8, 0x80403); (4, 0x84021); (2, 0x204081)] x (* 112-121 *)
  | 7%nat => expand 32 OpOr 0xf [(16, 0x80007); (8, 0x80403); (4, 0x804021); (2, 0x810081); (1, 0x1010101)] x (* 124-134 *)
  | 8%nat => expand 32 OpOr 0x7 [(16, 0x40003); (8, 0x40201)] x (* 137-144 *)
  | 9%nat => expand 32 OpOr 0x7 [(16, 0x40003); (8, 0x40201); (2, 0x100201); (1, 0x100401)] x (* 147-156 *)
  | _ => 0
  end.

(** ArborX_MortonCode.hpp:167-289, the 64-bit overload. *)
Definition expandBitsBy64 (n : nat) (x : N) : N :=
  match n with
  | 0%nat => x (* 167-171 *)
  | 1%nat => expand 64 OpOr 0x7fffffff [(16, 0x7fff0000ffff); (8, 0x7f00ff00ff00ff); (4, 0x70f0f0f0f0f0f0f); (2, 0x1333333333333333); (1, 0x1555555555555555)] x
  | 2%nat => expand 64 OpOr 0x1fffff [(32, 0x1f00000000ffff); (16, 0x1f0000ff0000ff); (8, 0x100f00f00f00f00f); (4, 0x10c30c30c30c30c3); (2, 0x1249249249249249)] x
  | 3%nat => expand 64 OpOr 0x7fff [(32, 0x7800000007ff); (16, 0x780007c0003f); (8, 0x40380700c03807); (4, 0x43084308430843); (2, 0x109090909090909); (1, 0x111111111111111)] x
  | 4%nat => expand 64 OpOr 0xfff [(32, 0xf00000000ff); (16, 0xf0000f0000f); (8, 0xc0300c0300c03); (4, 0x84210842108421)] x
  | 5%nat => expand 64 OpOr 0x3ff [(32, 0x3800000007f); (16, 0x3800070000f); (8, 0x3008060100c03); (4, 0x21008421008421); (2, 0x21021021021021); (1, 0x41041041041041)] x
  | 6%nat => expand 64 OpOr 0x1ff [(32, 0x1c00000003f); (16, 0x10000c000380007); (8, 0x100804030080403); (4, 0x100840210084021); (2, 0x102040810204081)] x
  | 7%nat => expand 64 OpOr 0x7f [(32, 0x600000001f); (16, 0x6000180007); (8, 0x402010080403); (4, 0x402100804021); (2, 0x1008100810081); (1, 0x1010101010101)] x
  | 8%nat => expand 64 OpOr 0x7f [(32, 0x700000000f); (16, 0x400030000c0003); (8, 0x40201008040201)] x
  | 9%nat => expand 64 OpOr 0x3f [(32, 0x300000000f); (16, 0x30000c0003); (8, 0x201008040201); (4, 0x2010008040201); (2, 0x2010020100201); (1, 0x4010040100401)] x
  | _ => 0
  end.

(** Number of bits per coordinate: N = 1 << bits.
    morton32 line 297: DIM == 1 ? 31 : 32 / DIM.  morton64 line 324: 63 / DIM. *)
Definition bits32 (DIM : nat) : nat := if (DIM =? 1)%nat then 31%nat else (32 / DIM)%nat.
Definition bits64 (DIM : nat) : nat := (63 / DIM)%nat.

(** The accumulation loops, lines 308-313 and 339-344, from the already truncated integer
    coordinates [xs] (length DIM): r += expandBitsBy<DIM-1>(x) << (DIM-d-1), modulo 2^w. *)
Definition morton_loop (w : N) (E : N -> N) (DIM : nat) (xs : list N) : N :=
  fst (fold_left (fun '(r, d) x =>
     (wrap w (r + wrap w (N.shiftl (E x) (N.of_nat (DIM - d - 1)))), S d)) xs (0, 0%nat)).
Definition morton32_int (DIM : nat) (xs : list N) : N := morton_loop 32 (expandBitsBy32 (DIM - 1)) DIM xs.
Definition morton64_int (DIM : nat) (xs : list N) : N := morton_loop 64 (expandBitsBy64 (DIM - 1)) DIM xs.

(** Coordinate to cell, lines 310-311 / 341-342: x = clamp(p*N, 0, N-1) truncated.
    The product is computed exactly or rounded by [rnd]; the conversion of N-1 to Float is [rnd (N-1)]. *)
Definition cell_coord (rnd : Q -> Q) (Nbins : Z) (p : Q) : Z :=
  let x := rnd (p * inject_Z Nbins)%Q in
  let hi := rnd (inject_Z (Nbins - 1)) in
  let c := (if Qle_bool x 0 then 0 else if Qle_bool hi x then hi else x)%Q in
  Qfloor c.

(** ArborX_TranslateAndScale.hpp:35: (a != b ? (in - a)/(b - a) : 0), each operation rounded. *)
Definition scale_coord (rnd : Q -> Q) (a b x : Q) : Q :=
  if Qeq_bool a b then 0%Q else rnd (rnd (x - a) / rnd (b - a))%Q.
