(** What affine maps are supposed to do, in plain real arithmetic. *)
From Coq Require Import ZArith Reals.
Local Open Scope R_scope.

Definition dot3 (x y : Z -> R) : R := x 0%Z * y 0%Z + x 1%Z * y 1%Z + x 2%Z * y 2%Z.
Definition cross (x y : Z -> R) : Z -> R := fun i =>
  if (i =? 0)%Z then x 1%Z * y 2%Z - x 2%Z * y 1%Z
  else if (i =? 1)%Z then x 2%Z * y 0%Z - x 0%Z * y 2%Z
  else x 0%Z * y 1%Z - x 1%Z * y 0%Z.
(** Rotation of x by the angle a about the unit vector u, right-handed (Rodrigues). *)
Definition rodrigues (u : Z -> R) (a : R) (x : Z -> R) : Z -> R := fun i =>
  cos a * x i + sin a * cross u x i + (1 - cos a) * dot3 u x * u i.
Definition det (x y z : Z -> R) : R := dot3 x (cross y z).
Definition e3 (k : Z) : Z -> R := fun i => if (i =? k)%Z then 1 else 0.
(** The length and the angle in (-pi, pi] of the point (x, y); the angle of the origin is 0. *)
Definition hypot (x y : R) : R := sqrt (x * x + y * y).
Definition atan2 (y x : R) : R :=
  if Req_EM_T (hypot x y) 0 then 0 else if Rle_dec 0 y then acos (x / hypot x y) else - acos (x / hypot x y).
