(** Theorems about triangles and colours. *)
From Coq Require Import ZArith QArith.
From Verif Require Import Base VecModel VecSpec SphModel TriModel TriProof.
Local Open Scope Q_scope.

(** ** C249 *)
(** If a ray meets a triangle, the point is on the plane through the first vertex that is orthogonal to the normal stored,
    where the root is exact. *)
Theorem triangle_point_partial : forall (sqrt : Q -> Q) (v0 v1 v2 o d : vec) (h : hit),
  tri_intersect sqrt v0 v1 v2 o d = Ok h -> does_intersect h = true ->
  exists t, 0 <= t /\ distance h = sqrt (length_sq (scale d t)) /\ same (point h) (add o (scale d (distance h))) /\
    (distance h == t -> orthogonal (sub (point h) v0) (normal h)).
Proof. exact triangle_point_lemma. Qed.
Print Assumptions triangle_point_partial.

Example triangle_point_partial_ex : exists h,
  tri_intersect (fun _ => 5 # 4) (Vec 0 0 0) (Vec 1 0 0) (Vec 0 1 0) (Vec (1 # 4) (1 # 4) (-1)) (Vec 0 0 1) = Ok h /\
  does_intersect h = true /\ distance h == 5 # 4.
Proof. eexists. split; [vm_compute; reflexivity|]. split; reflexivity. Qed.

(** For triangles in the planes on which y - z is constant cross is right: a ray not parallel to the plane is said to meet the
    triangle if and only if it does. *)
Theorem triangle_hits_partial : forall (sqrt : Q -> Q) (v0 v1 v2 o d : vec),
  vy v1 - vz v1 == vy v0 - vz v0 -> vy v2 - vz v2 == vy v0 - vz v0 ->
  ~ (vy v2 - vy v0) * (vx v1 - vx v0) - (vx v2 - vx v0) * (vy v1 - vy v0) == 0 -> ~ vy d == vz d ->
  0 < sqrt (length_sq (cross (sub v2 v0) (sub v1 v0))) ->
  exists h, tri_intersect sqrt v0 v1 v2 o d = Ok h /\
    (does_intersect h = true <-> exists t al be, 0 <= t /\ 0 <= al /\ 0 <= be /\ al + be <= 1 /\
       same (add o (scale d t)) (add v0 (add (scale (sub v1 v0) al) (scale (sub v2 v0) be)))).
Proof. exact flat_lemma. Qed.
Print Assumptions triangle_hits_partial.

Example triangle_hits_partial_ex : exists h, tri_intersect (fun _ => 2) (Vec 0 0 0) (Vec 1 0 0) (Vec 0 1 1) (Vec (1 # 4) (1 # 4) 5) (Vec 0 0 (-1)) = Ok h /\
  does_intersect h = true /\ exists h', tri_intersect (fun _ => 2) (Vec 0 0 0) (Vec 1 0 0) (Vec 0 1 1) (Vec (3 # 4) (3 # 4) 5) (Vec 0 0 (-1)) = Ok h' /\
  does_intersect h' = false.
Proof. eexists. split; [vm_compute; reflexivity|]. split; [reflexivity|]. eexists. split; [vm_compute; reflexivity|reflexivity]. Qed.

(** The normal is not that of the triangle: a ray through a triangle in the plane z = 0 is said to meet it at a point that is
    not on that plane. (The root enters as a positive factor of the normal and as the distance, 5/4.) *)
Theorem triangle_refuted : exists (v0 v1 v2 o d : vec) (h : hit) (sqrt : Q -> Q),
  vz v0 == 0 /\ vz v1 == 0 /\ vz v2 == 0 /\ unit_vec d /\ (forall x, 0 < sqrt x) /\
  tri_intersect sqrt v0 v1 v2 o d = Ok h /\ does_intersect h = true /\ ~ vz (point h) == 0.
Proof. exact triangle_refuted_lemma. Qed.
Print Assumptions triangle_refuted.

(** ** C250 *)
(** rgb_f_to_rgb: components of an unsigned type stay in the range of the type, *)
Theorem component_range : forall (mx : Z) (x : Q), (0 <= mx)%Z -> (0 <= to_component 0 mx x <= mx)%Z.
Proof. exact component_range_lemma. Qed.
Print Assumptions component_range.

Example component_range_ex : to_component 0 255 (7 # 2) = 255%Z /\ to_component 0 255 (-1) = 0%Z /\ to_component 0 255 (1 # 2) = 127%Z.
Proof. vm_compute. auto. Qed.

(** grow with the intensity, *)
Theorem component_monotone : forall (mx : Z) (x y : Q), (0 <= mx)%Z -> x <= y -> (to_component 0 mx x <= to_component 0 mx y)%Z.
Proof. exact component_monotone_lemma. Qed.
Print Assumptions component_monotone.

Example component_monotone_ex : to_component 0 255 (1 # 3) = 85%Z /\ to_component 0 255 (2 # 3) = 170%Z.
Proof. vm_compute. auto. Qed.

(** are less than one step below the exact value for an intensity from 0 to 1, and the limits of the type outside, *)
Theorem component_value : forall (mn mx : Z) (x : Q), (0 <= mx)%Z -> 0 <= x -> x <= 1 ->
  inject_Z (to_component mn mx x) <= x * inject_Z mx /\ x * inject_Z mx < inject_Z (to_component mn mx x) + 1.
Proof. exact component_value_lemma. Qed.
Print Assumptions component_value.

Example component_value_ex : to_component (-128) 127 (1 # 2) = 63%Z.
Proof. reflexivity. Qed.

Theorem component_outside : forall (mn mx : Z) (x : Q), (x < 0 -> to_component mn mx x = mn) /\ (1 < x -> to_component mn mx x = mx).
Proof. exact component_outside_lemma. Qed.
Print Assumptions component_outside.

Example component_outside_ex : to_component (-128) 127 (-1 # 2) = (-128)%Z.
Proof. reflexivity. Qed.

(** and a component taken as a fraction of the greatest is given back. *)
Theorem component_back : forall (mn mx k : Z), (0 <= k <= mx)%Z -> (0 < mx)%Z -> to_component mn mx (inject_Z k / inject_Z mx) = k.
Proof. exact component_back_lemma. Qed.
Print Assumptions component_back.

Example component_back_ex : to_component 0 255 (inject_Z 77 / inject_Z 255) = 77%Z.
Proof. reflexivity. Qed.

(** A colour is converted by its components. *)
Theorem rgb_correct : forall (mn mx : Z) (r g b : Q), (0 <= mx)%Z -> 0 <= r <= 1 -> 0 <= g <= 1 -> 0 <= b <= 1 ->
  exists R G B, rgb_f_to_rgb mn mx (r, g, b) = (R, G, B) /\
    (inject_Z R <= r * inject_Z mx < inject_Z R + 1) /\ (inject_Z G <= g * inject_Z mx < inject_Z G + 1) /\
    (inject_Z B <= b * inject_Z mx < inject_Z B + 1).
Proof. exact rgb_lemma. Qed.
Print Assumptions rgb_correct.

Example rgb_correct_ex : rgb_f_to_rgb 0 255 (0, 1, 1 # 2) = (0, 255, 127)%Z.
Proof. reflexivity. Qed.
