(** sprout/darkroom/coords/vector.hpp: vectors in space, with exact rationals in place of double. Nothing is
    proved in this file. *)
From Coq Require Import List ZArith QArith Bool.
Local Open Scope Q_scope.

(** 26-60 *)
Record vec := Vec { vx : Q; vy : Q; vz : Q }.

(** 65-72 *)
Definition is_zero (v : vec) : bool := Qeq_bool (vx v) 0 && Qeq_bool (vy v) 0 && Qeq_bool (vz v) 0.
(** 76-83 *)
Definition length_sq (v : vec) : Q := vx v * vx v + vy v * vy v + vz v * vz v.
(** 95-104 *)
Definition add (a b : vec) : vec := Vec (vx a + vx b) (vy a + vy b) (vz a + vz b).
(** 108-117 *)
Definition sub (a b : vec) : vec := Vec (vx a - vx b) (vy a - vy b) (vz a - vz b).
(** 121-130 *)
Definition scale (a : vec) (k : Q) : vec := Vec (vx a * k) (vy a * k) (vz a * k).
(** 134-143 *)
Definition negate (a : vec) : vec := Vec (- vx a) (- vy a) (- vz a).
(** 147-154 *)
Definition dot (a b : vec) : Q := vx a * vx b + vy a * vy b + vz a * vz b.
(** 158-172 *)
Definition cross (a b : vec) : vec :=
  Vec (vy a * vz b - vz a * vy b) (vy a * vx b - vx a * vy b) (vx a * vy b - vy a * vx b).

(** 178-186 *)
Definition normalize_impl (v : vec) (len : Q) : vec := Vec (vx v / len) (vy v / len) (vz v / len).

Section Root.
  (** sprout::sqrt *)
  Variable sqrt : Q -> Q.

  (** 87-91 *)
  Definition length (v : vec) : Q := sqrt (length_sq v).
  (** 188-195 *)
  Definition normalize (v : vec) : vec := normalize_impl v (length v).
  (** 199-206 *)
  Definition resize (v : vec) (k : Q) : vec := normalize_impl v (length v / k).

  (** 222-231 *)
  Definition refract_impl_1 (i n : vec) (eta t k : Q) : vec :=
    if negb (Qle_bool 0 k) then Vec 0 0 0 else scale (add i (scale n (t - sqrt k))) (1 / eta).
  (** 232-239 *)
  Definition refract_impl (i n : vec) (eta t : Q) : vec := refract_impl_1 i n eta t (eta * eta + t * t - 1).
  (** 241-248 *)
  Definition refract (i n : vec) (eta : Q) : vec := refract_impl i n eta (- dot i n).
End Root.

(** 210-217 *)
Definition reflect (i n : vec) : vec := sub i (scale n (dot i n * 2)).
