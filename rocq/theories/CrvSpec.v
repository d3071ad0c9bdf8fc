(** Curves in the plane: repeated linear interpolation, tangents. *)
From Coq Require Import List ZArith QArith Qabs.
Import ListNotations.
Local Open Scope Q_scope.

Definition same_point (p q : Q * Q) : Prop := fst p == fst q /\ snd p == snd q.

(** The point that divides the line from [p] to [q] in the ratio t : 1 - t. *)
Definition between (t : Q) (p q : Q * Q) : Q * Q := ((1 - t) * fst p + t * fst q, (1 - t) * snd p + t * snd q).

Fixpoint betweens (t : Q) (l : list (Q * Q)) : list (Q * Q) :=
  match l with
  | p :: l' => match l' with q :: _ => between t p q :: betweens t l' | [] => [] end
  | [] => []
  end.

(** De Casteljau's construction. *)
Fixpoint casteljau (n : nat) (t : Q) (l : list (Q * Q)) : Q * Q :=
  match n with
  | O => hd (0, 0) l
  | S n => casteljau n t (betweens t l)
  end.

(** [f] has the derivative [d] at [t]. *)
Definition has_slope (f : Q -> Q) (t d : Q) : Prop :=
  exists k, forall h, Qabs h <= 1 -> Qabs (f (t + h) - f t - d * h) <= k * (h * h).

(** The curve [f] has the tangent [v] at [t]. *)
Definition has_tangent (f : Q -> Q * Q) (t : Q) (v : Q * Q) : Prop :=
  has_slope (fun s => fst (f s)) t (fst v) /\ has_slope (fun s => snd (f s)) t (snd v).

(** Half of the way from [p] to [q]. *)
Definition half_way (p q : Q * Q) : Q * Q := ((1 # 2) * (fst q - fst p), (1 # 2) * (snd q - snd p)).
