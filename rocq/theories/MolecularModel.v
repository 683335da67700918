(** The molecular dynamics example.  Source: /repo/examples/molecular_dynamics/example_molecular_dynamics.cpp (MD).  An access out of bounds is None; the
    neighbour search (MD:117-126) is the query of TraversalModel.v, its result is given here by [indices] and [offsets]. *)
From Verif Require Export Base GeomOps ReduceModel KernelAlgModel.
Local Open Scope nat_scope.

Section Molecular.
Context {T : Type} (O : Ops T).
Definition vec3 : Type := T * T * T.
Definition vadd3 (a b : vec3) : vec3 := (o_add O a.1.1 b.1.1, o_add O a.1.2 b.1.2, o_add O a.2 b.2).
Definition vsub3 (a b : vec3) : vec3 := (o_sub O a.1.1 b.1.1, o_sub O a.1.2 b.1.2, o_sub O a.2 b.2).
Definition vscale3 (k : T) (a : vec3) : vec3 := (o_mul O k a.1.1, o_mul O k a.1.2, o_mul O k a.2).
(** MD:146, 184 *)
Definition rsq (d : vec3) : T := o_add O (o_add O (o_mul O d.1.1 d.1.1) (o_mul O d.1.2 d.1.2)) (o_mul O d.2 d.2).
(** MD:153-155, 189-191 *)
Definition r2inv (s : T) : T := o_div O (o_one O) s.
Definition r6inv (s : T) : T := o_mul O (o_mul O (r2inv s) (r2inv s)) (r2inv s).
(** MD:156-158 fij, the constants lj1_ij and lj2_ij are 1 *)
Definition fij (s : T) : T := o_mul O (o_mul O (r6inv s) (o_sub O (o_mul O (o_one O) (r6inv s)) (o_one O))) (r2inv s).
(** MD:143-161, what one neighbour adds to the force.  [cutoff]: infinity in the program (MD:149-150). *)
Definition pair_force (cutoff : T) (pi pj acc : vec3) : vec3 :=
  let d := vsub3 pi pj in let s := rsq d in
  if o_ltb O s cutoff then let f := fij s in vadd3 acc (o_mul O d.1.1 f, o_mul O d.1.2 f, o_mul O d.2 f) else acc.
(** MD:141-162 and 177-196: j runs through the neighbours of particle i *)
Definition neighbour_loop {A} (particles : list vec3) (indices offsets : list nat) (i : nat) (body : vec3 -> vec3 -> A -> A) (init : A) : option A :=
  p ← particles !! i; a ← offsets !! i; b ← offsets !! S i;
  foldl (fun acc j => u ← acc; k ← indices !! j; q ← particles !! k; Some (body p q u)) (Some init) (seq a (b - a)).
(** MD:128-166 compute_forces: thread i writes only its own force *)
Definition force_on (cutoff : T) particles indices offsets (force : list vec3) (i : nat) : option vec3 :=
  f ← force !! i;
  d ← neighbour_loop particles indices offsets i (pair_force cutoff) (o_zero O, o_zero O, o_zero O);
  Some (vadd3 f d).
Definition compute_forces (cutoff : T) particles indices offsets (n : nat) : option (list vec3) :=
  mapM (force_on cutoff particles indices offsets (replicate n (o_zero O, o_zero O, o_zero O))) (seq 0 n).

(** MD:192-194.  [half], [six]: the constants .5f and 6.f *)
Definition pair_energy (half six s : T) : T :=
  o_div O (o_mul O (o_mul O half (r6inv s)) (o_sub O (o_mul O (o_mul O half (o_one O)) (r6inv s)) (o_one O))) six.
(** MD:168-198 compute_potential_energy: the functor assigns local_energy (MD:194), the partial results are added *)
Definition energy_functor (half six cutoff : T) particles indices offsets (i : nat) (local_energy : T) : option T :=
  neighbour_loop particles indices offsets i (fun pi pj e => let s := rsq (vsub3 pi pj) in if o_ltb O s cutoff then pair_energy half six s else e) local_energy.
Definition potential_energy (half six cutoff : T) particles indices offsets (p : rplan) : option T :=
  run_plan (energy_functor half six cutoff particles indices offsets) (fun u w => Some (o_add O u w)) (o_zero O) p.

(** MD:200-211 update_particles_position_and_velocity, for one particle; the mass is 1 *)
Definition update_particle (dt : T) (x v f : vec3) : vec3 * vec3 :=
  let dt_m := o_div O dt (o_one O) in
  let v' := vadd3 v (vscale3 dt_m f) in (vadd3 x (vscale3 dt v'), v').
Definition update_particles (dt : T) (xs vs fs : list vec3) : option (list (vec3 * vec3)) :=
  mapM (fun i => x ← xs !! i; v ← vs !! i; f ← fs !! i; Some (update_particle dt x v f)) (seq 0 (length xs)).

(** MD:86-92 make_particles: what iteration (i, j, k) writes to slot 4 id + t.  [of_int]: the conversion of an int. *)
Definition slot (ny nz : nat) (c : nat * nat * nat * nat) : nat := let '(i, j, k, t) := c in 4 * (i * ny * nz + j * nz + k) + t.
Definition particle_at (of_int : nat -> T) (half : T) (d : vec3) (c : nat * nat * nat * nat) : vec3 :=
  let '(i, j, k, t) := c in
  let o := o_zero O in
  let '(a, b, e) := match t with 0 => (o, o, o) | 1 => (o, half, half) | 2 => (half, o, half) | _ => (half, half, o) end in
  (o_add O (o_mul O (of_int i) d.1.1) a, o_add O (o_mul O (of_int j) d.1.2) b, o_add O (o_mul O (of_int k) d.2) e).
(** [order]: the order of all writes of all iterations; the view is not initialized *)
Definition make_particles (of_int : nat -> T) (half : T) (d : vec3) (nx ny nz : nat) (order : list (nat * nat * nat * nat)) : option (list (option vec3)) :=
  foldl (fun out c => o ← out; wr o (slot ny nz c) (Some (particle_at of_int half d c))) (Some (replicate (4 * (nx * ny * nz)) None)) order.
End Molecular.
