(** sprout/math/curve: Bezier curves and Catmull-Rom splines in the plane. The code writes each formula
    twice, once for each coordinate; here it is written once and applied to both. Points that a formula does
    not find are a compile-time error in the code, [None] here. Nothing is proved in this file. *)
From Coq Require Import List ZArith QArith.
Import ListNotations.

Section Curve.
  (** The arithmetic of the coordinates and the parameter: [half] is division by the int 2, [num] the conversion
      of an int. *)
  Variable T : Type.
  Variables (add sub mul : T -> T -> T) (opp half : T -> T) (num : Z -> T).
  Local Notation "x + y" := (add x y).
  Local Notation "x - y" := (sub x y).
  Local Notation "x * y" := (mul x y).
  Local Notation "- x" := (opp x).
  Local Notation "# n" := (num n) (at level 8).

  (** sprout/detail/pow.hpp 18-37 *)
  Definition pow2 (x : T) : T := x * x.
  Definition pow3 (x : T) : T := x * x * x.
  Definition pow4 (x : T) : T := x * x * x * x.
  Definition pow5 (x : T) : T := x * x * x * x * x.

  (** bezier.hpp 31-33 *)
  Definition bezier_2 (t p0 p1 p2 : T) : T :=
    pow2 (#1 - t) * p0 + #2 * t * (#1 - t) * p1 + pow2 t * p2.
  (** 50-53 *)
  Definition bezier_3 (t p0 p1 p2 p3 : T) : T :=
    pow3 (#1 - t) * p0 + #3 * t * pow2 (#1 - t) * p1 + #3 * pow2 t * (#1 - t) * p2 + pow3 t * p3.
  (** 72-76 *)
  Definition bezier_4 (t p0 p1 p2 p3 p4 : T) : T :=
    pow4 (#1 - t) * p0 + #4 * t * pow3 (#1 - t) * p1 + #6 * pow2 t * pow2 (#1 - t) * p2 + #4 * pow3 t * (#1 - t) * p3 + pow4 t * p4.
  (** 97-102 *)
  Definition bezier_5 (t p0 p1 p2 p3 p4 p5 : T) : T :=
    pow5 (#1 - t) * p0 + #5 * t * pow4 (#1 - t) * p1 + #10 * pow2 t * pow3 (#1 - t) * p2
    + #10 * pow3 t * pow2 (#1 - t) * p3 + #5 * pow4 t * (#1 - t) * p4 + pow5 t * p5.

  (** 21-127: bezier with the degree given *)
  Definition bezier_n (n : nat) (t : T) (p : list (T * T)) : option (T * T) :=
    match n, p with
    | 2%nat, (x0, y0) :: (x1, y1) :: (x2, y2) :: _ => Some (bezier_2 t x0 x1 x2, bezier_2 t y0 y1 y2)
    | 3%nat, (x0, y0) :: (x1, y1) :: (x2, y2) :: (x3, y3) :: _ => Some (bezier_3 t x0 x1 x2 x3, bezier_3 t y0 y1 y2 y3)
    | 4%nat, (x0, y0) :: (x1, y1) :: (x2, y2) :: (x3, y3) :: (x4, y4) :: _ =>
        Some (bezier_4 t x0 x1 x2 x3 x4, bezier_4 t y0 y1 y2 y3 y4)
    | 5%nat, (x0, y0) :: (x1, y1) :: (x2, y2) :: (x3, y3) :: (x4, y4) :: (x5, y5) :: _ =>
        Some (bezier_5 t x0 x1 x2 x3 x4 x5, bezier_5 t y0 y1 y2 y3 y4 y5)
    | _, _ => None
    end.

  (** 118-122: the degree is one less than the number of points *)
  Definition bezier (t : T) (p : list (T * T)) : option (T * T) := bezier_n (Nat.sub (length p) 1%nat) t p.

  (** catmull_rom_spline.hpp 29-32 *)
  Definition spline_coord (t p0 p1 p2 p3 : T) : T :=
    half (- p0 + #3 * p1 - #3 * p2 + p3) * pow3 t
    + half (#2 * p0 - #5 * p1 + #4 * p2 - p3) * pow2 t
    + half (- p0 + p2) * t
    + p1.
  (** 49-51 *)
  Definition spline_start_coord (t p0 p1 p2 : T) : T :=
    half (p0 - #2 * p1 + p2) * pow2 t + half (#(-3) * p0 + #4 * p1 - p2) * t + p0.
  (** 67-69 *)
  Definition spline_end_coord (t p0 p1 p2 : T) : T :=
    half (p0 - #2 * p1 + p2) * pow2 t + half (- p0 + p2) * t + p1.

  (** 20-40, 84-88 *)
  Definition catmull_rom_spline (t : T) (p0 p1 p2 p3 : T * T) : T * T :=
    (spline_coord t (fst p0) (fst p1) (fst p2) (fst p3), spline_coord t (snd p0) (snd p1) (snd p2) (snd p3)).
  (** 41-58, 89-93 *)
  Definition catmull_rom_spline_start (t : T) (p0 p1 p2 : T * T) : T * T :=
    (spline_start_coord t (fst p0) (fst p1) (fst p2), spline_start_coord t (snd p0) (snd p1) (snd p2)).
  (** 59-76, 94-98 *)
  Definition catmull_rom_spline_end (t : T) (p0 p1 p2 : T * T) : T * T :=
    (spline_end_coord t (fst p0) (fst p1) (fst p2), spline_end_coord t (snd p0) (snd p1) (snd p2)).
End Curve.

(** With exact rationals. *)
Definition qhalf (x : Q) : Q := (x / inject_Z 2)%Q.
Definition qbezier_n := bezier_n Q Qplus Qminus Qmult inject_Z.
Definition qbezier := bezier Q Qplus Qminus Qmult inject_Z.
Definition qspline := catmull_rom_spline Q Qplus Qminus Qmult Qopp qhalf inject_Z.
Definition qspline_start := catmull_rom_spline_start Q Qplus Qminus Qmult qhalf inject_Z.
Definition qspline_end := catmull_rom_spline_end Q Qplus Qminus Qmult Qopp qhalf inject_Z.

(** With integers: the division rounds towards zero. *)
Definition zhalf (x : Z) : Z := Z.quot x 2.
Definition zspline := catmull_rom_spline Z Z.add Z.sub Z.mul Z.opp zhalf (fun n => n).
