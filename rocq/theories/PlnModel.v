(** sprout/darkroom/objects/aa_plane.hpp: where a ray meets a plane orthogonal to an axis, with exact rationals in
    place of double. The material is left out. Nothing is proved in this file. *)
From Coq Require Import ZArith QArith Bool.
From Verif Require Import VecModel SphModel.
Local Open Scope Q_scope.

(** 26-45 *)
Inductive axis := AX | AY | AZ.
Inductive face := FaceBoth | FaceNegative | FacePositive | FaceSame.

(** 182-193 *)
Definition coord (a : axis) (v : vec) : Q := match a with AX => vx v | AY => vy v | AZ => vz v end.

Section Plane.
  (** 74-77 *)
  Variables (a : axis) (val : Q) (f : face).

  (** 91-120 *)
  Definition plane_5 (hit_side : Z) (inside does : bool) (dist : Q) (p : vec) : hit :=
    let u := if (0 <? hit_side)%Z then 1 else -1 in
    Hit does dist p (match a with AX => Vec u 0 0 | AY => Vec 0 u 0 | AZ => Vec 0 0 u end) inside.
  (** 121-133 *)
  Definition plane_4 (o d : vec) (hit_side : Z) (inside does : bool) (dist : Q) : hit :=
    plane_5 hit_side inside does dist (if does then point_of_intersection o d dist else Vec 0 0 0).
  (** 134-146 *)
  Definition plane_3 (o d : vec) (pos_v dir_v : Q) (hit_side : Z) (inside does : bool) : hit :=
    plane_4 o d hit_side inside does (if does then (pos_v - val) / (- dir_v) else -1).
  (** 147-158 *)
  Definition plane_2 (o d : vec) (pos_v dir_v : Q) (hit_side : Z) (inside : bool) : hit :=
    plane_3 o d pos_v dir_v hit_side inside
      (((0 <? hit_side)%Z && qlt dir_v 0) || ((hit_side <? 0)%Z && qlt 0 dir_v)).
  (** 159-172 *)
  Definition plane_1 (o d : vec) (pos_v dir_v : Q) : hit :=
    plane_2 o d pos_v dir_v (if qlt val pos_v then 1%Z else (-1)%Z)
      (match f with
       | FaceBoth => false
       | FaceNegative => qlt 0 dir_v
       | FacePositive => qlt dir_v 0
       | FaceSame => (qlt 0 val && qlt dir_v 0) || (qlt val 0 && qlt 0 dir_v)
       end).
  (** 180-194 *)
  Definition plane_intersect (o d : vec) : hit := plane_1 o d (coord a o) (coord a d).
End Plane.
