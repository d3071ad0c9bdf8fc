(** Rays and spheres. *)
From Coq Require Import QArith.
From Verif Require Import VecModel VecSpec.
Local Open Scope Q_scope.

(** The square of the distance from [pos] to the point of the ray at [s]. *)
Definition dist_sq (pos o d : vec) (s : Q) : Q :=
  let x := vx o + s * vx d - vx pos in
  let y := vy o + s * vy d - vy pos in
  let z := vz o + s * vz d - vz pos in
  x * x + y * y + z * z.

(** A root function that respects equality and is exact at [x]. *)
Definition exact_at (sqrt : Q -> Q) (x : Q) : Prop :=
  (forall a b, a == b -> sqrt a == sqrt b) /\ root_of (sqrt x) x.
