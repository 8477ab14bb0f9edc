(** * What summation should do to velocities on the sphere
    Velocities are vectors in space, tangent to the sphere; every node ends with
    the components of the mean over the nodes at its point. *)
From Coq Require Import ZArith Reals List.
From Verif Require Import DssSpec CsTransSpec.
Local Open Scope Z_scope.

(** gnomonic coordinate of node [k] on a panel of [e] elements with nodes at
    [pts] of the unit interval, equiangular *)
Definition gnomonic (np e : Z) (pts : list R) (k : Z) : R :=
  tan (- PI / 4 + PI / 2 / IZR e * (IZR (k / np) + nth (Z.to_nat (k mod np)) pts 0))%R.

(** [v] is tangent at the point of panel [p] with coordinates [x], [y] *)
Definition tangent (p : Z) (x y : R) (v : vec3) : Prop :=
  exists a b va vb, alpha_vector p x y va /\ beta_vector p x y vb /\ v = plus (scale a va) (scale b vb).
(** its covariant components are [c], [d] *)
Definition components (p : Z) (x y : R) (v : vec3) (c d : R) : Prop :=
  exists va vb, alpha_vector p x y va /\ beta_vector p x y vb /\ c = dot v va /\ d = dot v vb.

(** the same at a node *)
Definition tangent_at (np e : Z) (pts : list R) (x : Z * Z * Z) (v : vec3) : Prop :=
  tangent (fst (fst x)) (gnomonic np e pts (snd (fst x))) (gnomonic np e pts (snd x)) v.
Definition components_at (np e : Z) (pts : list R) (x : Z * Z * Z) (v : vec3) (c d : R) : Prop :=
  components (fst (fst x)) (gnomonic np e pts (snd (fst x))) (gnomonic np e pts (snd x)) v c d.

(** a mean of vectors *)
Definition mean_vector {A} (P : A -> Prop) (W : A -> vec3) (w : vec3) : Prop :=
  mean_over P (fun x => fst (fst (W x))) (fst (fst w)) /\ mean_over P (fun x => snd (fst (W x))) (snd (fst w)) /\
  mean_over P (fun x => snd (W x)) (snd w).
