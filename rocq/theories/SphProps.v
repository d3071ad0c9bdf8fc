(** Theorems about rays and spheres. *)
From Coq Require Import ZArith QArith.
From Verif Require Import VecModel VecSpec VecProof SphModel SphSpec SphProof.
Local Open Scope Q_scope.

(** ** C247 *)
(** A ray meets a sphere if and only if it passes through its inside, where the root taken is exact. *)
Theorem sphere_hits : forall (sqrt : Q -> Q) (pos : vec) (rad : Q) (o d : vec), unit_vec d ->
  let v := sub o pos in let b := - dot v d in let det_sq := b * b - length_sq v + rad * rad in
  (0 < det_sq -> root_of (sqrt det_sq) det_sq) ->
  does_intersect (intersect sqrt pos rad o d) = true <-> exists s, 0 < s /\ dist_sq pos o d s < rad * rad.
Proof. exact hits_lemma. Qed.
Print Assumptions sphere_hits.

Example sphere_hits_ex : does_intersect (intersect (fun _ => 2) (Vec 0 0 0) 2 (Vec (-5) 0 0) (Vec 1 0 0)) = true /\
  does_intersect (intersect (fun _ => 2) (Vec 0 0 0) 2 (Vec (-5) 0 0) (Vec (-1) 0 0)) = false /\
  does_intersect (intersect (fun _ => 2) (Vec 0 0 0) 2 (Vec (-5) 3 0) (Vec 1 0 0)) = false.
Proof. vm_compute. auto. Qed.

(** The distance is that of the first point of the ray on the sphere, and this is the point returned. *)
Theorem sphere_first : forall (sqrt : Q -> Q) (pos : vec) (rad : Q) (o d : vec), unit_vec d ->
  let v := sub o pos in let b := - dot v d in let det_sq := b * b - length_sq v + rad * rad in
  (0 < det_sq -> root_of (sqrt det_sq) det_sq) ->
  let h := intersect sqrt pos rad o d in does_intersect h = true ->
  0 <= distance h /\ same (point h) (add o (scale d (distance h))) /\ dist_sq pos o d (distance h) == rad * rad /\
  forall s, 0 <= s -> s < distance h -> ~ dist_sq pos o d s == rad * rad.
Proof. exact first_lemma. Qed.
Print Assumptions sphere_first.

Example sphere_first_ex : let h := intersect (fun _ => 2) (Vec 0 0 0) 2 (Vec (-5) 0 0) (Vec 1 0 0) in
  distance h == 3 /\ same (point h) (Vec (-2) 0 0) /\ distance (intersect (fun _ => 2) (Vec 0 0 0) 2 (Vec 1 0 0) (Vec 1 0 0)) == 1.
Proof. vm_compute. auto. Qed.

(** The normal is the unit vector that points away from the centre, or towards it if the ray starts inside of the sphere: it
    always points against the ray. *)
Theorem sphere_normal : forall (sqrt : Q -> Q) (pos : vec) (rad : Q) (o d : vec), unit_vec d -> 0 < rad ->
  let v := sub o pos in let b := - dot v d in let det_sq := b * b - length_sq v + rad * rad in
  (0 < det_sq -> root_of (sqrt det_sq) det_sq) -> exact_at sqrt (rad * rad) ->
  let h := intersect sqrt pos rad o d in does_intersect h = true ->
  unit_vec (normal h) /\ prod (normal h) d < 0 /\
  same (sub (point h) pos) (scale (normal h) (if is_from_inside h then - rad else rad)) /\
  (is_from_inside h = true <-> dist_sq pos o d 0 < rad * rad).
Proof. exact normal_lemma. Qed.
Print Assumptions sphere_normal.

Example sphere_normal_ex : exact_at (fun _ => 2) (2 * 2) /\
  same (normal (intersect (fun _ => 2) (Vec 0 0 0) 2 (Vec (-5) 0 0) (Vec 1 0 0))) (Vec (-1) 0 0) /\
  same (normal (intersect (fun _ => 2) (Vec 0 0 0) 2 (Vec 1 0 0) (Vec 1 0 0))) (Vec (-1) 0 0) /\
  is_from_inside (intersect (fun _ => 2) (Vec 0 0 0) 2 (Vec 1 0 0) (Vec 1 0 0)) = true.
Proof. split; [split; [reflexivity|split; [discriminate|reflexivity]]|]. vm_compute. auto 10. Qed.
