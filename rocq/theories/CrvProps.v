(** Theorems about Bezier curves and Catmull-Rom splines. *)
From Coq Require Import List ZArith QArith.
From Verif Require Import CrvModel CrvSpec CrvProof.
Import ListNotations.
Local Open Scope Q_scope.

(** ** C242 *)
(** bezier is the point of de Casteljau's construction, for every number of points that is supported. *)
Theorem bezier_casteljau : forall (t : Q) (p : list (Q * Q)), (3 <= length p <= 6)%nat ->
  exists r, qbezier t p = Some r /\ same_point r (casteljau (length p - 1) t p).
Proof. exact bezier_casteljau_lemma. Qed.
Print Assumptions bezier_casteljau.

Example bezier_casteljau_ex : exists r, qbezier (1 # 2) [(0, 0); (1, 2); (3, 2); (4, 0)] = Some r /\ same_point r (2, 3 # 2).
Proof. eexists. split; [reflexivity|]. split; vm_compute; reflexivity. Qed.

(** With a lower degree given, the first points alone are used. *)
Theorem bezier_degree : forall (n : nat) (t : Q) (p : list (Q * Q)), (2 <= n <= 5)%nat -> (n < length p)%nat ->
  exists r, qbezier_n n t p = Some r /\ same_point r (casteljau n t p).
Proof. exact bezier_n_casteljau. Qed.
Print Assumptions bezier_degree.

Example bezier_degree_ex : exists r, qbezier_n 2 (1 # 2) [(0, 0); (1, 2); (2, 0); (4, 0)] = Some r /\ same_point r (1, 1).
Proof. eexists. split; [reflexivity|]. split; vm_compute; reflexivity. Qed.

(** The curve begins at the first point and ends at the last. *)
Theorem bezier_ends : forall (p : list (Q * Q)) (d : Q * Q), (3 <= length p <= 6)%nat ->
  (exists r, qbezier 0 p = Some r /\ same_point r (nth 0 p d)) /\
  (exists r, qbezier 1 p = Some r /\ same_point r (nth (length p - 1) p d)).
Proof. exact bezier_ends_lemma. Qed.
Print Assumptions bezier_ends.

Example bezier_ends_ex : exists r, qbezier 1 [(0, 0); (1, 2); (3, 2); (4, 0); (5, 7); (6, 8)] = Some r /\ same_point r (6, 8).
Proof. eexists. split; [reflexivity|]. split; vm_compute; reflexivity. Qed.

(** The curve stays on each side of a line on which all of the points are: it lies in their convex hull. *)
Theorem bezier_hull : forall (t : Q) (p : list (Q * Q)), (3 <= length p <= 6)%nat -> 0 <= t -> t <= 1 ->
  exists r, qbezier t p = Some r /\
    forall a b c, Forall (fun q => a * fst q + b * snd q <= c) p -> a * fst r + b * snd r <= c.
Proof. exact bezier_hull_lemma. Qed.
Print Assumptions bezier_hull.

Example bezier_hull_ex : Forall (fun q => 1 * fst q + 1 * snd q <= 5) [(0, 0); (1, 2); (3, 2); (4, 0)].
Proof. repeat constructor; vm_compute; discriminate. Qed.

(** ** C243 *)
(** A segment of the spline leads from the second point to the third. Its tangents there are given by the neighbours
    alone, so that successive segments join smoothly. *)
Theorem spline_correct : forall p0 p1 p2 p3 : Q * Q,
  same_point (qspline 0 p0 p1 p2 p3) p1 /\ same_point (qspline 1 p0 p1 p2 p3) p2 /\
  has_tangent (fun t => qspline t p0 p1 p2 p3) 0 (half_way p0 p2) /\
  has_tangent (fun t => qspline t p0 p1 p2 p3) 1 (half_way p1 p3).
Proof. exact spline_lemma. Qed.
Print Assumptions spline_correct.

Example spline_correct_ex : same_point (qspline (1 # 2) (0, 0) (1, 1) (2, 1) (3, 0)) (3 # 2, 9 # 8) /\
  half_way (0, 0) (2, 1) = (2 # 2, 1 # 2).
Proof. split; [split|]; vm_compute; reflexivity. Qed.

(** The first segment leads from the first point to the second, with the tangent of the next segment there. *)
Theorem spline_start_correct : forall p0 p1 p2 : Q * Q,
  same_point (qspline_start 0 p0 p1 p2) p0 /\ same_point (qspline_start 1 p0 p1 p2) p1 /\
  has_tangent (fun t => qspline_start t p0 p1 p2) 1 (half_way p0 p2).
Proof. exact spline_start_lemma. Qed.
Print Assumptions spline_start_correct.

Example spline_start_correct_ex : same_point (qspline_start (1 # 2) (0, 0) (1, 2) (2, 0)) (1 # 2, 3 # 2).
Proof. split; vm_compute; reflexivity. Qed.

(** The last segment leads from the second point to the third, with the tangent of the segment before it. *)
Theorem spline_end_correct : forall p0 p1 p2 : Q * Q,
  same_point (qspline_end 0 p0 p1 p2) p1 /\ same_point (qspline_end 1 p0 p1 p2) p2 /\
  has_tangent (fun t => qspline_end t p0 p1 p2) 0 (half_way p0 p2).
Proof. exact spline_end_lemma. Qed.
Print Assumptions spline_end_correct.

Example spline_end_correct_ex : same_point (qspline_end (1 # 2) (0, 0) (1, 2) (2, 0)) (3 # 2, 3 # 2).
Proof. split; vm_compute; reflexivity. Qed.

(** With coordinates that are integers, a segment need not end at the third point. *)
Theorem spline_integer_refuted : exists p0 p1 p2 p3 : Z * Z, zspline 1 p0 p1 p2 p3 <> p2.
Proof. exact zspline_refuted. Qed.
Print Assumptions spline_integer_refuted.
