(** Arithmetic the geometric algorithms are written over.  A model is a function of an [Ops] record, so the same
    definition runs on rationals (exact), on rationals with a rounding after every operation, and on IEEE numbers. *)
From Coq Require Import QArith SpecFloat.
From Verif Require Import Base.

Record Ops (T : Type) := {
  o_zero : T; o_one : T;
  o_add : T -> T -> T; o_sub : T -> T -> T; o_mul : T -> T -> T; o_div : T -> T -> T;
  o_opp : T -> T; o_sqrt : T -> T;
  o_ltb : T -> T -> bool; o_leb : T -> T -> bool; o_eqb : T -> T -> bool
}.
Arguments o_zero {T}. Arguments o_one {T}. Arguments o_add {T}. Arguments o_sub {T}. Arguments o_mul {T}.
Arguments o_div {T}. Arguments o_opp {T}. Arguments o_sqrt {T}. Arguments o_ltb {T}. Arguments o_leb {T}. Arguments o_eqb {T}.

Definition Qltb (a b : Q) : bool := negb (Qle_bool b a).

(** Exact arithmetic.  The square root is not used with it. *)
Definition QOps : Ops Q := {| o_zero := 0; o_one := 1; o_add := Qplus; o_sub := Qminus; o_mul := Qmult; o_div := Qdiv;
  o_opp := Qopp; o_sqrt := fun x => x; o_ltb := Qltb; o_leb := Qle_bool; o_eqb := Qeq_bool |}%Q.

(** Every operation rounds its exact result; [sq] is the computed square root. *)
Definition RndOps (rnd sq : Q -> Q) : Ops Q := {| o_zero := 0; o_one := 1; o_add a b := rnd (a + b); o_sub a b := rnd (a - b);
  o_mul a b := rnd (a * b); o_div a b := rnd (a / b); o_opp := Qopp; o_sqrt := sq; o_ltb := Qltb; o_leb := Qle_bool; o_eqb := Qeq_bool |}%Q.

(** IEEE 754 with round to nearest even. *)
Definition FloatOps (prec emax : Z) : Ops spec_float := {| o_zero := S754_zero false; o_one := binary_normalize prec emax 1 0 false;
  o_add := SFadd prec emax; o_sub := SFsub prec emax; o_mul := SFmul prec emax; o_div := SFdiv prec emax;
  o_opp := SFopp; o_sqrt := SFsqrt prec emax; o_ltb := SFltb; o_leb := SFleb; o_eqb := SFeqb |}.
Definition F32 : Ops spec_float := FloatOps 24 128.
Definition F64 : Ops spec_float := FloatOps 53 1024.
(** m * 2^e as a number of the format. *)
Definition f32 (m e : Z) : spec_float := binary_normalize 24 128 m e false.
Definition f64 (m e : Z) : spec_float := binary_normalize 53 1024 m e false.

Lemma Qltb_lt a b : Qltb a b = true <-> (a < b)%Q.
Proof.
  unfold Qltb. rewrite negb_true_iff. split; intros H.
  - apply Qnot_le_lt. intros Hc. apply Qle_bool_iff in Hc. congruence.
  - apply not_true_iff_false. intros Hc. apply Qle_bool_iff in Hc. by apply Qlt_not_le in H.
Qed.
Lemma Qltb_ge a b : Qltb a b = false <-> (b <= a)%Q.
Proof. unfold Qltb. by rewrite negb_false_iff, Qle_bool_iff. Qed.
