(** Theorems about the vectors of darkroom. *)
From Coq Require Import QArith.
From Verif Require Import VecModel VecSpec VecProof.
Local Open Scope Q_scope.

(** ** C244 *)
(** reflect turns the component along a unit normal round and keeps all others; the length is kept, and reflecting again
    gives the vector back. *)
Theorem reflect_correct : forall i n : vec, unit_vec n ->
  prod (reflect i n) (reflect i n) == prod i i /\ prod (reflect i n) n == - prod i n /\
  (forall v, orthogonal n v -> prod (reflect i n) v == prod i v) /\ same (reflect (reflect i n) n) i.
Proof. exact reflect_lemma. Qed.
Print Assumptions reflect_correct.

Example reflect_correct_ex : unit_vec (Vec 0 (3 # 5) (4 # 5)) /\ same (reflect (Vec 1 (-1) 0) (Vec 0 1 0)) (Vec 1 1 0).
Proof. vm_compute. auto. Qed.

(** normalize gives the unit vector of the same direction, where the root is exact. *)
Theorem normalize_correct : forall (sqrt : Q -> Q) (v : vec), root_of (sqrt (prod v v)) (prod v v) -> ~ prod v v == 0 ->
  unit_vec (normalize sqrt v) /\ same (scale (normalize sqrt v) (sqrt (prod v v))) v /\ 0 < sqrt (prod v v).
Proof. exact normalize_lemma. Qed.
Print Assumptions normalize_correct.

Example normalize_correct_ex : root_of 5 (prod (Vec 3 0 4) (Vec 3 0 4)) /\ same (normalize (fun _ => 5) (Vec 3 0 4)) (Vec (3 # 5) 0 (4 # 5)).
Proof. split; [split; [discriminate|reflexivity]|]. vm_compute. auto. Qed.

(** resize gives the vector of the length asked for; with a negative length, in the opposite direction. *)
Theorem resize_correct : forall (sqrt : Q -> Q) (v : vec) (k : Q), root_of (sqrt (prod v v)) (prod v v) -> ~ prod v v == 0 -> ~ k == 0 ->
  prod (resize sqrt v k) (resize sqrt v k) == k * k /\ same (scale (resize sqrt v k) (sqrt (prod v v))) (scale v k).
Proof. exact resize_lemma. Qed.
Print Assumptions resize_correct.

Example resize_correct_ex : same (resize (fun _ => 5) (Vec 3 0 4) 10) (Vec 6 0 8).
Proof. vm_compute. auto. Qed.

(** A vector is zero if and only if its length is. *)
Theorem is_zero_correct : forall v : vec, is_zero v = true <-> prod v v == 0.
Proof. exact is_zero_lemma. Qed.
Print Assumptions is_zero_correct.

Example is_zero_correct_ex : is_zero (Vec 0 0 (1 # 3)) = false /\ is_zero (Vec 0 (0 # 5) 0) = true.
Proof. split; reflexivity. Qed.

(** ** C245 *)
(** refract: a unit vector that goes through a surface with a unit normal stays a unit vector, goes to the far side, and its
    components along the surface are divided by the index of refraction (Snell's law), where the root is exact. *)
Theorem refract_correct : forall (sqrt : Q -> Q) (i n : vec) (eta : Q), unit_vec i -> unit_vec n -> 0 < eta ->
  let k := eta * eta + prod i n * prod i n - 1 in
  0 <= k -> root_of (sqrt (eta * eta + - prod i n * - prod i n - 1)) k ->
  let r := refract sqrt i n eta in
  unit_vec r /\ prod r n <= 0 /\ forall v, orthogonal n v -> prod r v == prod i v / eta.
Proof. exact refract_lemma. Qed.
Print Assumptions refract_correct.

Example refract_correct_ex : let i := Vec (3 # 5) (-4 # 5) 0 in let n := Vec 0 1 0 in
  unit_vec i /\ unit_vec n /\ root_of (9 # 20) ((3 # 4) * (3 # 4) + prod i n * prod i n - 1) /\
  same (refract (fun _ => 9 # 20) i n (3 # 4)) (Vec (4 # 5) (-3 # 5) 0).
Proof. split; [reflexivity|]. split; [reflexivity|]. split; [split; [discriminate|reflexivity]|]. vm_compute. auto. Qed.

(** If there is no such vector (total reflection), the result is zero. *)
Theorem refract_total : forall (sqrt : Q -> Q) (i n : vec) (eta : Q), eta * eta + prod i n * prod i n < 1 -> refract sqrt i n eta = Vec 0 0 0.
Proof. exact refract_total_lemma. Qed.
Print Assumptions refract_total.

Example refract_total_ex : (1 # 2) * (1 # 2) + prod (Vec (4 # 5) (-3 # 5) 0) (Vec 0 1 0) * prod (Vec (4 # 5) (-3 # 5) 0) (Vec 0 1 0) < 1.
Proof. vm_compute. reflexivity. Qed.

(** ** C246 *)
(** cross: the first and the third coordinate are right; the second is that of another product, and only where the
    two agree is the result orthogonal to both vectors. *)
Theorem cross_partial : forall a b : vec,
  vx (cross a b) == vy a * vz b - vz a * vy b /\ vz (cross a b) == vx a * vy b - vy a * vx b /\
  (vy a * vx b - vx a * vy b == vz a * vx b - vx a * vz b -> orthogonal (cross a b) a /\ orthogonal (cross a b) b).
Proof. exact cross_partial_lemma. Qed.
Print Assumptions cross_partial.

Example cross_partial_ex : same (cross (Vec 1 2 2) (Vec 3 4 4)) (Vec 0 2 (-2)).
Proof. vm_compute. auto. Qed.

(** The result need not be orthogonal to the vectors, and may be zero for orthogonal unit vectors. *)
Theorem cross_refuted : (exists a b, ~ orthogonal (cross a b) a) /\
  (exists a b, orthogonal a b /\ unit_vec a /\ unit_vec b /\ same (cross a b) (Vec 0 0 0)).
Proof. exact cross_refuted_lemma. Qed.
Print Assumptions cross_refuted.
