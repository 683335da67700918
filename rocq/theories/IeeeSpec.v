(** IEEE numbers among the values of Coq.Floats.SpecFloat. *)
From Coq Require Import SpecFloat.
From Verif Require Import Base.

Section Ieee.
Context (prec emax : Z).
(** A value of the format that is not NaN. *)
Definition ieee_number (x : spec_float) : bool := valid_binary prec emax x && match x with S754_nan => false | _ => true end.
(** Neither NaN nor an infinity. *)
Definition ieee_finite (x : spec_float) : bool := valid_binary prec emax x && match x with S754_nan | S754_infinity _ => false | _ => true end.
End Ieee.
