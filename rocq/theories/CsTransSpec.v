(** * What the cubed-sphere conversions should do
    Points and tangent vectors in space; nothing here refers to the model. *)
From Coq Require Import ZArith Reals.
Local Open Scope R_scope.

Definition vec3 := (R * R * R)%type.
Definition scale (c : R) (v : vec3) : vec3 := let '(x, y, z) := v in (c * x, c * y, c * z).
Definition plus (u v : vec3) : vec3 := let '(x, y, z) := u in let '(a, b, c) := v in (x + a, y + b, z + c).
Definition dot (u v : vec3) : R := let '(x, y, z) := u in let '(a, b, c) := v in x * a + y * b + z * c.

(** the cube [-1,1]^3: the point of face [p] with face coordinates [x], [y] *)
Definition cube_point (p : Z) (x y : R) : vec3 :=
  match p with
  | 0%Z => (1, x, y)
  | 1%Z => (- x, 1, y)
  | 2%Z => (- 1, - x, y)
  | 3%Z => (x, - 1, y)
  | 4%Z => (- y, x, 1)
  | _ => (y, x, - 1)
  end.
(** its central projection on the unit sphere *)
Definition sphere_point (p : Z) (x y : R) : vec3 :=
  let c := cube_point p x y in scale (/ sqrt (dot c c)) c.
(** the point of longitude [lon] and latitude [lat] *)
Definition geo_point (lon lat : R) : vec3 := (cos lon * cos lat, sin lon * cos lat, sin lat).
Definition panel (p : Z) : Prop := (0 <= p <= 5)%Z.

(** faces with a common edge *)
Definition adjacent (p q : Z) : Prop := dot (cube_point p 0 0) (cube_point q 0 0) = 0.

(** unit vectors to the east and to the north *)
Definition east (lon : R) : vec3 := (- sin lon, cos lon, 0).
Definition north (lon lat : R) : vec3 := (- sin lat * cos lon, - sin lat * sin lon, cos lat).
(** the velocity of a curve in space *)
Definition velocity (f : R -> vec3) (t : R) (v : vec3) : Prop :=
  let '(x, y, z) := v in
  derivable_pt_lim (fun s => fst (fst (f s))) t x /\ derivable_pt_lim (fun s => snd (fst (f s))) t y /\
  derivable_pt_lim (fun s => snd (f s)) t z.
(** the coordinate vectors of the equiangular coordinates alpha = atan x, beta = atan y *)
Definition alpha_vector (p : Z) (x y : R) (v : vec3) : Prop :=
  velocity (fun a => sphere_point p (tan a) y) (atan x) v.
Definition beta_vector (p : Z) (x y : R) (v : vec3) : Prop :=
  velocity (fun b => sphere_point p x (tan b)) (atan y) v.
