(** The ray tracing example.  Source: /repo/examples/raytracing/example_raytracing.cpp (RT).  The overlap of a ray and a box is in RayModel.v; here the
    lengths are given.  An access out of bounds is None. *)
From Verif Require Export Base GeomOps.
Local Open Scope nat_scope.

(** RT:123-150 IntersectedCell: what a callback knows about a ray that passes through a cell *)
Record hit {T : Type} := Hit { h_entry : T; h_ray : nat; h_length : T; h_cell : nat }.
Arguments hit : clear implicits.
Arguments Hit {T}.

Section Raytracing.
Context {T : Type} (O : Ops T) (expm1 : T -> T).

(** RT:45-49 lost_energy *)
Definition lost_energy (ray_energy path_length : T) : T := o_mul O (o_opp O ray_energy) (expm1 (o_opp O path_length)).
(** One hit of ray i: the energy of the ray and that of the cell change (RT:84-89, 363-368).  The rays' energies of the second approach (RT:360) are
    local to the threads; here they are in a list, too. *)
Definition deposit (i : nat) (h : hit T) (st : list T * list T) : option (list T * list T) :=
  e ← st.1 !! i;
  let energy_deposited := lost_energy e (h_length h) in
  rays ← wr st.1 i (o_add O e energy_deposited);
  c ← st.2 !! h_cell h;
  cells ← wr st.2 (h_cell h) (o_add O c energy_deposited);
  Some (rays, cells).
(** The hits of all rays, in the order in which they happen; the addition to the cell is atomic (RT:89, 367). *)
Fixpoint run_hits (tr : list (nat * hit T)) (st : list T * list T) : option (list T * list T) :=
  match tr with [] => Some st | ih :: tr => st' ← deposit ih.1 ih.2 st; run_hits tr st' end.

(** RT:127-133, the order of the hits *)
Definition hit_less (l r : hit T) : bool := if h_ray l =? h_ray r then o_ltb O (h_entry l) (h_entry r) else h_ray l <? h_ray r.
(** RT:361-363: what thread i works through *)
Definition thread_hits (values : list (hit T)) (offsets permutation : list nat) (i : nat) : option (list (hit T)) :=
  a ← offsets !! i; b ← offsets !! S i; mapM (fun j => p ← permutation !! j; values !! p) (seq a (b - a)).

(** RT:382-385: does the comparison of the two energies of a cell count an error? *)
Definition counts_error (rel_tol ordered intersects : T) : bool :=
  let fabs x := if o_ltb O x (o_zero O) then o_opp O x else x in
  let abs_error := o_div O (fabs (o_sub O ordered intersects)) (fabs intersects) in
  o_ltb O (o_mul O rel_tol (fabs intersects)) abs_error.
End Raytracing.
