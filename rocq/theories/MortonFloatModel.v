(** Bit-exact floating-point part of morton32 / morton64 (src/spatial/detail/ArborX_MortonCode.hpp:291-347)
    on Coq.Floats.SpecFloat (pure Gallina IEEE 754, no axioms).  Inputs are coordinates already scaled to
    [0,1] by translateAndScale. *)
From Verif Require Export MortonModel.
From Coq Require Export SpecFloat.
Local Open Scope Z_scope.

Record fmt := { f_prec : Z; f_emax : Z }.
Definition binary32 : fmt := {| f_prec := 24; f_emax := 128 |}.
Definition binary64 : fmt := {| f_prec := 53; f_emax := 1024 |}.

(** Conversion of an integer to a floating type. *)
Definition of_int (f : fmt) (z : Z) : spec_float := binary_normalize (f_prec f) (f_emax f) z 0 false.
Definition fmul (f : fmt) := SFmul (f_prec f) (f_emax f).

(** Kokkos::clamp(v, lo, hi): (v < lo) ? lo : (hi < v) ? hi : v *)
Definition clamp (v lo hi : spec_float) : spec_float :=
  if SFltb v lo then lo else if SFltb hi v then hi else v.

(** Truncating conversion of a non-negative finite float to an unsigned integer. *)
Definition trunc (x : spec_float) : N :=
  match x with
  | S754_finite false m e => Z.to_N (if e <? 0 then Z.pos m / 2 ^ (- e) else Z.pos m * 2 ^ e)
  | _ => 0%N
  end.

(** morton32 with float coordinates: lines 297, 310-313 (Float = float). *)
Definition morton32_float (DIM : nat) (p : list spec_float) : N :=
  let Nb := 2 ^ Z.of_nat (bits32 DIM) in
  morton32_int DIM (map (fun c => trunc (clamp (fmul binary32 c (of_int binary32 Nb)) (of_int binary32 0)
                                               (of_int binary32 (Nb - 1)))) p).

(** morton64 where Float = DefaultFloat = double (NeedDouble, DIM <= 2 or double coordinates):
    lines 324, 331-344. *)
Definition morton64_double (DIM : nat) (p : list spec_float) : N :=
  let Nb := 2 ^ Z.of_nat (bits64 DIM) in
  morton64_int DIM (map (fun c => trunc (clamp (fmul binary64 c (of_int binary64 Nb)) (of_int binary64 0)
                                               (of_int binary64 (Nb - 1)))) p).
