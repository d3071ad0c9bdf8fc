(** Geometry of vectors in space, by coordinates. *)
From Coq Require Import QArith.
From Verif Require Import VecModel.
Local Open Scope Q_scope.

Definition same (a b : vec) : Prop := vx a == vx b /\ vy a == vy b /\ vz a == vz b.

(** The scalar product. *)
Definition prod (a b : vec) : Q := vx a * vx b + vy a * vy b + vz a * vz b.

Definition unit_vec (a : vec) : Prop := prod a a == 1.
Definition orthogonal (a b : vec) : Prop := prod a b == 0.

(** [r] is the root of [x] that is not negative. *)
Definition root_of (r x : Q) : Prop := 0 <= r /\ r * r == x.
