(** sprout/darkroom/objects/sphere.hpp: where a ray meets a sphere, with exact rationals in place of double. The
    material is left out. Nothing is proved in this file. *)
From Coq Require Import ZArith QArith Bool.
From Verif Require Import VecModel.
Local Open Scope Q_scope.

Definition qlt (x y : Q) : bool := negb (Qle_bool y x).

(** 39-52, without the material *)
Record hit := Hit { does_intersect : bool; distance : Q; point : vec; normal : vec; is_from_inside : bool }.

(** 70-82: the side, whether there is an intersection, and the distance *)
Definition zweitens_1 (i1 i2 : Q) : Z * bool * Q :=
  (if qlt 0 i2 then (if qlt i1 0 then (-1)%Z else 1%Z) else 0%Z, qlt 0 i2,
   if qlt 0 i2 then (if qlt i1 0 then i2 else i1) else -1).

(** 83-89 *)
Definition zweitens (neg : bool) (b det : Q) : Z * bool * Q :=
  if neg then zweitens_1 (b - det) (b + det) else (0%Z, false, -1).

(** rays/ray.hpp 59-66 *)
Definition point_of_intersection (o d : vec) (dist : Q) : vec := add o (scale d dist).

Section Sphere.
  Variable sqrt : Q -> Q.
  (** 66-67 *)
  Variables (pos : vec) (rad : Q).

  (** 90-99 *)
  Definition drittens_1 (p : vec) : vec * vec := (p, normalize sqrt (sub p pos)).
  (** 100-110 *)
  Definition drittens (o d : vec) (neg : bool) (dist : Q) : vec * vec :=
    if neg then drittens_1 (point_of_intersection o d dist) else (Vec 0 0 0, Vec 1 1 1).
  (** 111-141 *)
  Definition intersect_6 (zwo : Z * bool * Q) (drei : vec * vec) (inside : bool) (n : vec) : hit :=
    Hit (snd (fst zwo)) (snd zwo) (fst drei) (if inside then negate n else n) inside.
  (** 142-151 *)
  Definition intersect_5 (d : vec) (zwo : Z * bool * Q) (drei : vec * vec) : hit :=
    intersect_6 zwo drei (qlt 0 (dot (snd drei) d)) (snd drei).
  (** 152-164 *)
  Definition intersect_4 (o d : vec) (zwo : Z * bool * Q) : hit :=
    intersect_5 d zwo (drittens o d (snd (fst zwo)) (snd zwo)).
  (** 165-176 *)
  Definition intersect_3 (o d : vec) (b det_sq : Q) : hit :=
    intersect_4 o d (zweitens (qlt 0 det_sq) b (if qlt 0 det_sq then sqrt det_sq else 0)).
  (** 177-185 *)
  Definition intersect_2 (o d v : vec) (b : Q) : hit := intersect_3 o d b (b * b - length_sq v + rad * rad).
  (** 186-194 *)
  Definition intersect_1 (o d v : vec) : hit := intersect_2 o d v (- dot v d).
  (** 201-208: the ray starts at [o] in the direction [d] *)
  Definition intersect (o d : vec) : hit := intersect_1 o d (sub o pos).
End Sphere.
