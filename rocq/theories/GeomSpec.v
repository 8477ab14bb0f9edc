(** * What metric terms should be
    A point of the domain is a point in space together with a height; lengths are those
    of the product (shallow atmosphere).  Nothing here refers to the model. *)
From Coq Require Import Reals.
From Verif Require Import CsTransSpec.
Local Open Scope R_scope.

Definition place := (vec3 * R)%type.
(** the velocity of a curve of such points *)
Definition moves (f : R -> place) (t : R) (v : place) : Prop :=
  velocity (fun s => fst (f s)) t (fst v) /\ derivable_pt_lim (fun s => snd (f s)) t (snd v).
Definition inner (d e : place) : R := dot (fst d) (fst e) + snd d * snd e.
Definition along (u : R) (d : place) : place := (scale u (fst d), u * snd d).
Definition sum2 (d e : place) : place := (plus (fst d) (fst e), snd d + snd e).

(** the rows A, B, X turn the products of a vector with the three coordinate vectors into
    its components *)
Definition raises (ea eb ex : place) (A B X : R * R * R) : Prop :=
  forall u v w, let d := sum2 (sum2 (along u ea) (along v eb)) (along w ex) in
  let times := fun r : R * R * R => fst (fst r) * inner d ea + snd (fst r) * inner d eb + snd r * inner d ex in
  times A = u /\ times B = v /\ times X = w.
(** the square of the volume that three vectors span *)
Definition gram3 (a b c : place) : R :=
  inner a a * (inner b b * inner c c - inner b c * inner b c)
  - inner a b * (inner a b * inner c c - inner b c * inner a c)
  + inner a c * (inner a b * inner b c - inner b b * inner a c).
(** the same in two dimensions *)
Definition raises2 (ea eb : vec3) (A B : R * R) : Prop :=
  forall u v, let d := plus (scale u ea) (scale v eb) in
  fst A * dot d ea + snd A * dot d eb = u /\ fst B * dot d ea + snd B * dot d eb = v.
Definition lowers2 (ea eb : vec3) (A B : R * R) : Prop :=
  forall u v, let d := plus (scale u ea) (scale v eb) in
  fst A * u + snd A * v = dot d ea /\ fst B * u + snd B * v = dot d eb.
Definition gram2 (a b : vec3) : R := dot a a * dot b b - dot a b * dot a b.

(** the height of the sphere above the plane of the equator *)
Definition north_part (v : vec3) : R := snd v.
(** a point of the closed face of the cube *)
Definition on_face (x y : R) : Prop := -1 <= x <= 1 /\ -1 <= y <= 1.
