(** Theorems about rays and planes. *)
From Coq Require Import ZArith QArith.
From Verif Require Import VecModel VecSpec SphModel PlnModel PlnProof.
Local Open Scope Q_scope.

(** ** C248 *)
(** A ray that does not start on the plane meets it if and only if some point ahead is on the plane. *)
Theorem plane_hits_partial : forall (a : axis) (val : Q) (f : face) (o d : vec), ~ coord a o == val ->
  does_intersect (plane_intersect a val f o d) = true <-> exists s, 0 < s /\ coord a o + s * coord a d == val.
Proof. exact plane_hits_lemma. Qed.
Print Assumptions plane_hits_partial.

Example plane_hits_partial_ex : does_intersect (plane_intersect AY (-1) FaceBoth (Vec 0 3 0) (Vec 0 (-2) 1)) = true /\
  does_intersect (plane_intersect AY (-1) FaceBoth (Vec 0 3 0) (Vec 0 2 1)) = false.
Proof. vm_compute. auto. Qed.

(** The distance leads to the point, which is on the plane; the normal is a unit vector orthogonal to the plane that points
    against the ray. *)
Theorem plane_point : forall (a : axis) (val : Q) (f : face) (o d : vec),
  let h := plane_intersect a val f o d in does_intersect h = true ->
  0 <= distance h /\ same (point h) (add o (scale d (distance h))) /\ coord a (point h) == val /\
  unit_vec (normal h) /\ prod (normal h) d < 0 /\ forall v, coord a v == 0 -> orthogonal (normal h) v.
Proof. exact plane_point_lemma. Qed.
Print Assumptions plane_point.

Example plane_point_ex : let h := plane_intersect AY (-1) FaceBoth (Vec 0 3 0) (Vec 0 (-2) 1) in
  distance h == 2 /\ same (point h) (Vec 0 (-1) 2) /\ same (normal h) (Vec 0 1 0).
Proof. vm_compute. auto 10. Qed.

(** A ray that starts on the plane meets it in one direction and not in the opposite one. *)
Theorem plane_start_refuted : exists a val f o d,
  does_intersect (plane_intersect a val f o d) = true /\ does_intersect (plane_intersect a val f o (negate d)) = false /\ coord a o == val.
Proof. exact plane_start_refuted_lemma. Qed.
Print Assumptions plane_start_refuted.

(** is_from_inside: with both faces never; with the positive face for rays against the axis, with the negative face for the
    opposite rays; otherwise the face is that on the side of the plane away from the origin. *)
Theorem plane_inside : forall (a : axis) (val : Q) (o d : vec), let inside f d := is_from_inside (plane_intersect a val f o d) in
  inside FaceBoth d = false /\ (inside FacePositive d = true <-> coord a d < 0) /\ inside FaceNegative d = inside FacePositive (negate d) /\
  (0 < val -> inside FaceSame d = inside FacePositive d) /\ (val < 0 -> inside FaceSame d = inside FaceNegative d) /\
  (val == 0 -> inside FaceSame d = inside FaceBoth d).
Proof. exact plane_inside_lemma. Qed.
Print Assumptions plane_inside.

Example plane_inside_ex : is_from_inside (plane_intersect AZ 2 FaceSame (Vec 0 0 5) (Vec 0 0 (-1))) = true.
Proof. reflexivity. Qed.
