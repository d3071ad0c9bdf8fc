(** sprout/darkroom/objects/polygon/triangle.hpp: where a ray meets a triangle, and sprout/darkroom/colors/rgb.hpp: colours
    as small integers, with exact rationals in place of double. The material is left out. Nothing is proved in this
    file. *)
From Coq Require Import ZArith QArith Qround Bool.
From Verif Require Import Base VecModel SphModel.
Local Open Scope Q_scope.

Section Triangle.
  Variable sqrt : Q -> Q.
  (** 51-53 *)
  Variables (v0 v1 v2 : vec).

  (** 143-150 *)
  Definition tri_normal : vec := normalize sqrt (cross (sub v2 v0) (sub v1 v0)).
  (** 55-64 *)
  Definition within_test (d0 d1 : vec) : bool := Qle_bool 0 (dot (cross d0 d1) tri_normal).
  (** 65-79 *)
  Definition tri_5 (o d : vec) (does : bool) (dist : Q) : hit :=
    Hit does dist (if does then point_of_intersection o d dist else Vec 0 0 0) tri_normal false.
  (** 80-91 *)
  Definition tri_4 (o d v : vec) (does : bool) : hit := tri_5 o d does (if does then length sqrt v else -1).
  (** 92-113 *)
  Definition tri_3 (o d v p : vec) (exist_forward : bool) : hit :=
    tri_4 o d v (exist_forward && within_test (sub p v0) (sub v1 v0) && within_test (sub p v1) (sub v2 v1)
                 && within_test (sub p v2) (sub v0 v2)).
  (** 114-129 *)
  Definition tri_2 (o d : vec) (t : Q) : hit := tri_3 o d (scale d t) (add o (scale d t)) (Qle_bool 0 t).
  (** 130-138; a division by zero is UB *)
  Definition tri_1 (o d : vec) (xpn vn : Q) : res hit := if Qeq_bool vn 0 then UB else Ok (tri_2 o d (xpn / vn)).
  (** 152-166 *)
  Definition tri_intersect (o d : vec) : res hit := tri_1 o d (dot (sub v0 o) tri_normal) (dot d tri_normal).
End Triangle.

(** rgb.hpp 179-181, one component; [mn] and [mx] are the limits of the integer type, and the conversion to it truncates *)
Definition to_component (mn mx : Z) (x : Q) : Z :=
  if qlt x 0 then mn else if qlt 1 x then mx else Qfloor (x * inject_Z mx).

(** rgb.hpp 174-192 *)
Definition rgb_f_to_rgb (mn mx : Z) (c : Q * Q * Q) : Z * Z * Z :=
  let '(r, g, b) := c in (to_component mn mx r, to_component mn mx g, to_component mn mx b).
