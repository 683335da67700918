(** The geometric algorithms on IEEE numbers.  The model of BoxModel is a function of the arithmetic; here it is the type of the
    numbers of a format (no NaN) with SpecFloat's operations.  An operation whose result is NaN yields zero here; theorem
    C67_distances shows that none does.  The trees and queries compare by SFltb, as the code does by <. *)
From Coq Require Import SpecFloat.
From Verif Require Import Base GeomOps BoxModel IeeeSpec.

Section Ieee.
Context (prec emax : Z).
Definition num : Type := {x : spec_float | ieee_number prec emax x = true}.
Definition raw (x : num) : spec_float := proj1_sig x.
Definition as_num (x : spec_float) : num :=
  match bool_dec (ieee_number prec emax x) true with
  | left H => exist _ x H
  | right _ => exist _ (S754_zero false) eq_refl
  end.
Definition NumOps : Ops num :=
  let O := FloatOps prec emax in
  {| o_zero := as_num (o_zero O); o_one := as_num (o_one O); o_add a b := as_num (o_add O (raw a) (raw b)); o_sub a b := as_num (o_sub O (raw a) (raw b));
     o_mul a b := as_num (o_mul O (raw a) (raw b)); o_div a b := as_num (o_div O (raw a) (raw b)); o_opp a := as_num (o_opp O (raw a));
     o_sqrt a := as_num (o_sqrt O (raw a)); o_ltb a b := o_ltb O (raw a) (raw b); o_leb a b := o_leb O (raw a) (raw b); o_eqb a b := o_eqb O (raw a) (raw b) |}.
(** Kokkos::Experimental::finite_max and finite_min (/repo/src/geometry/ArborX_Box.hpp:33-43), infinity. *)
Definition max_num : num := as_num (S754_finite false (shift_pos (Z.to_pos prec) 1 - 1) (emax - prec)).
Definition min_num : num := as_num (S754_finite true (shift_pos (Z.to_pos prec) 1 - 1) (emax - prec)).
Definition inf_num : num := as_num (S754_infinity false).
End Ieee.

(** Search trees over such numbers. *)
Section Tree.
Context (prec emax : Z) (DIM : nat).
Notation num := (num prec emax).
(** The bounding volumes: boxes of DIM pairs of numbers, no minimum corner above finite_max and no maximum corner below finite_min, as
    the default constructor and expand yield for finite geometries. *)
Definition box_ok (b : list (num * num)) : Prop :=
  length b = DIM /\ Forall (fun c => o_ltb (NumOps prec emax) (max_num prec emax) c.1 = false /\ o_ltb (NumOps prec emax) c.2 (min_num prec emax) = false) b.
Definition ibox : Type := {b : list (num * num) | box_ok b}.
#[global] Instance box_ok_dec b : Decision (box_ok b).
Proof. unfold box_ok. apply _. Defined.
(** The volume as the predicates see it. *)
Definition raw_box (b : ibox) : list (spec_float * spec_float) := map (fun c => (raw prec emax c.1, raw prec emax c.2)) (proj1_sig b).
(** The default constructed box, Box:33-43, and expand, ArborX_Expand.hpp:62-77 (an inadmissible result does not occur: i_join_raw in PropertiesIeee). *)
Lemma ltb_irrefl x : SFltb x x = false.
Proof. unfold SFltb, SFcompare. destruct x as [s|[]| |[] m e]; try done; rewrite ?Z.compare_refl, ?Pos.compare_cont_refl; done. Qed.
Lemma empty_ok : box_ok (empty_box DIM (min_num prec emax) (max_num prec emax)).
Proof. split; [apply replicate_length|]. apply Forall_replicate. split; apply ltb_irrefl. Qed.
Definition i_empty : ibox := exist _ _ empty_ok.
Definition i_join (a b : ibox) : ibox :=
  let c := expand_box (NumOps prec emax) (proj1_sig a) (proj1_sig b) in
  match decide (box_ok c) with left H => exist _ c H | right _ => a end.
(** The box of a leaf; a box that is not as above becomes the empty box (excluded by the hypotheses of the theorems). *)
Definition as_ibox (b : list (spec_float * spec_float)) : ibox :=
  let b' := map (fun c => (as_num prec emax c.1, as_num prec emax c.2)) b in
  match decide (box_ok b') with left H => exist _ b' H | right _ => i_empty end.
(** The i-th value. *)
Definition point_at (pts : list (list spec_float)) (i : nat) : list spec_float := nth i pts (replicate DIM (S754_zero false)).
Definition box_at (bxs : list (list (spec_float * spec_float))) (i : nat) : list (spec_float * spec_float) :=
  nth i bxs (replicate DIM (S754_zero false, S754_zero false)).
End Tree.
