(** * The shallow-water equations on a rotating sphere *)
From Coq Require Import Reals.
Local Open Scope R_scope.

(** partial derivatives of a field of longitude and latitude *)
Definition d_lon (f : R -> R -> R) (lon lat d : R) : Prop := derivable_pt_lim (fun x => f x lat) lon d.
Definition d_lat (f : R -> R -> R) (lon lat d : R) : Prop := derivable_pt_lim (fun y => f lon y) lat d.
(** the accelerations of the zonal and meridional wind at a point with the Coriolis
    parameter [f], and the rate of change of the depth *)
Definition zonal_rate (a g f : R) (u v h : R -> R -> R) (lon lat A : R) : Prop :=
  exists ul uf hl, d_lon u lon lat ul /\ d_lat u lon lat uf /\ d_lon h lon lat hl /\
    A = - (u lon lat / (a * cos lat) * ul + v lon lat / a * uf - u lon lat * v lon lat * tan lat / a - f * v lon lat + g / (a * cos lat) * hl).
Definition merid_rate (a g f : R) (u v h : R -> R -> R) (lon lat A : R) : Prop :=
  exists vl vf hf, d_lon v lon lat vl /\ d_lat v lon lat vf /\ d_lat h lon lat hf /\
    A = - (u lon lat / (a * cos lat) * vl + v lon lat / a * vf + u lon lat * u lon lat * tan lat / a + f * u lon lat + g / a * hf).
Definition depth_rate (a : R) (u v h : R -> R -> R) (lon lat A : R) : Prop :=
  exists ml mf, d_lon (fun x y => h x y * u x y) lon lat ml /\ d_lat (fun x y => h x y * v x y * cos y) lon lat mf /\
    A = - (ml + mf) / (a * cos lat).
(** the divergence of a velocity field *)
Definition divergence (a : R) (u v : R -> R -> R) (lon lat A : R) : Prop :=
  exists ul vf, d_lon u lon lat ul /\ d_lat (fun x y => v x y * cos y) lon lat vf /\ A = (ul + vf) / (a * cos lat).
(** the position of a point of the unit sphere and the tangent vector with the components
    [u] to the east and [v] to the north *)
Definition position (lon lat : R) : R * R * R := (cos lat * cos lon, cos lat * sin lon, sin lat).
Definition tangent_vector (lon lat u v : R) : R * R * R :=
  (- u * sin lon - v * sin lat * cos lon, u * cos lon - v * sin lat * sin lon, v * cos lat).
(** the sphere turned about its second axis *)
Definition turn (al : R) (p : R * R * R) : R * R * R :=
  match p with (x, y, z) => (cos al * x + sin al * z, y, cos al * z - sin al * x) end.
(** the rate of change of the divergence: the divergence of the accelerations, [f] being
    the Coriolis parameter as a function of latitude *)
Definition divergence_rate (a g : R) (f : R -> R) (u v h : R -> R -> R) (lon lat A : R) : Prop :=
  exists mu mv : R -> R -> R,
    (exists o, 0 < o /\ forall x y, Rabs (y - lat) < o ->
       zonal_rate a g (f y) u v h x y (mu x y) /\ merid_rate a g (f y) u v h x y (mv x y)) /\
    divergence a mu mv lon lat A.
