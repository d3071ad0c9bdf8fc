(** Model of the arithmetic of sprout::complex (sprout/complex/) and sprout::math::quaternion
    (sprout/math/quaternion/) over a component type T with the operations below.  Nothing is proved
    here.  For floating-point T the operations round; the theorems are about T whose operations are
    those of an ordered field, so they leave rounding, infinities and NaNs aside.

    A binary operator returns its value.  A compound assignment stores into the object; its
    argument is a reference that may refer to the object itself, so it is modelled step by step and
    the argument read where the code reads it.

    Not modelled because they do not compile when used: quaternion * complex and complex *
    quaternion (arithmetic_operators.hpp 159-172: R_component_1 of a complex), quaternion /
    quaternion, quaternion / complex and complex / quaternion as binary operators (227:
    div_qq_impl_3 called with one argument), and with them pow; abs (abs.hpp 40: both branches of
    the conditional have no common type). *)
From Coq Require Import List Bool Arith.
Import ListNotations.

Record ops (T : Type) : Type := Ops {
  t0 : T; t1 : T;
  tadd : T -> T -> T; tsub : T -> T -> T; tmul : T -> T -> T; tdiv : T -> T -> T; tneg : T -> T;
  teqb : T -> T -> bool; tltb : T -> T -> bool; tabs : T -> T
}.
Arguments t0 {T} _.
Arguments t1 {T} _.
Arguments tadd {T} _ _ _.
Arguments tsub {T} _ _ _.
Arguments tmul {T} _ _ _.
Arguments tdiv {T} _ _ _.
Arguments tneg {T} _ _.
Arguments teqb {T} _ _ _.
Arguments tltb {T} _ _ _.
Arguments tabs {T} _ _.

(** complex<T>: elems_[0], elems_[1] (complex/complex.hpp 50-79) *)
Record cplx (T : Type) : Type := Cx { re : T; im : T }.
Arguments Cx {T} _ _.
Arguments re {T} _.
Arguments im {T} _.

(** quaternion<T>: elems_[0..3] *)
Record quat (T : Type) : Type := Qt { qa : T; qb : T; qc : T; qd : T }.
Arguments Qt {T} _ _ _ _.
Arguments qa {T} _.
Arguments qb {T} _.
Arguments qc {T} _.
Arguments qd {T} _.

(** A reference to a T: some other object with this value, or component i of the object that is
    assigned to. *)
Inductive ref (T : Type) : Type := Other (t : T) | Comp (i : nat).
Arguments Other {T} _.
Arguments Comp {T} _.

(** A reference to a complex or quaternion: another object, or the object that is assigned to. *)
Inductive zref (A : Type) : Type := Another (w : A) | Self.
Arguments Another {A} _.
Arguments Self {A}.

Definition zread {A} (x : A) (r : zref A) : A := match r with Another w => w | Self => x end.

Section Cq.
  Context {T : Type} (K : ops T).

  Local Notation "x + y" := (tadd K x y).
  Local Notation "x - y" := (tsub K x y).
  Local Notation "x * y" := (tmul K x y).
  Local Notation "x / y" := (tdiv K x y).
  Local Notation "- x" := (tneg K x).
  Local Notation "0" := (t0 K).
  Local Notation "1" := (t1 K).
  Local Notation "x == y" := (teqb K x y) (at level 70).

  (** ** complex (complex/arithmetic_operators.hpp) *)

  (** operator+, lines 16-30 *)
  Definition c_add (x y : cplx T) := Cx (re x + re y) (im x + im y).
  Definition c_add_t (x : cplx T) (y : T) := Cx (re x + y) (im x).
  Definition t_add_c (x : T) (y : cplx T) := Cx (x + re y) (im y).
  (** operator-, 31-45 *)
  Definition c_sub (x y : cplx T) := Cx (re x - re y) (im x - im y).
  Definition c_sub_t (x : cplx T) (y : T) := Cx (re x - y) (im x).
  Definition t_sub_c (x : T) (y : cplx T) := Cx (x - re y) (- im y).
  (** operator*, 46-63 *)
  Definition c_mul (x y : cplx T) := Cx (re x * re y - im x * im y) (re x * im y + im x * re y).
  Definition c_mul_t (x : cplx T) (y : T) := Cx (re x * y) (im x * y).
  Definition t_mul_c (x : T) (y : cplx T) := Cx (x * re y) (x * im y).
  (** complex_norm, complex/complex.hpp 20-24 *)
  Definition complex_norm (x : cplx T) := re x * re x + im x * im x.
  (** divides_impl, 65-77; operator/, 79-93 *)
  Definition c_divides (x y : cplx T) (n : T) :=
    Cx ((re x * re y + im x * im y) / n) ((im x * re y - re x * im y) / n).
  Definition t_divides (x : T) (y : cplx T) (n : T) := Cx (x * re y / n) ((- x) * im y / n).
  Definition c_div (x y : cplx T) := c_divides x y (complex_norm y).
  Definition c_div_t (x : cplx T) (y : T) := Cx (re x / y) (im x / y).
  Definition t_div_c (x : T) (y : cplx T) := t_divides x y (complex_norm y).
  (** unary - , 99-103 *)
  Definition c_neg (x : cplx T) := Cx (- re x) (- im x).
  (** operator==, 104-118 *)
  Definition c_eqb (x y : cplx T) := (re x == re y) && (im x == im y).
  Definition c_eqb_t (x : cplx T) (y : T) := (re x == y) && (im x == 0).
  Definition t_eqb_c (x : T) (y : cplx T) := (x == re y) && (0 == im y).
  (** operator!=, 119-133 *)
  Definition c_neb (x y : cplx T) := negb (c_eqb x y).

  (** conj (complex/conj.hpp 23-25), perp (perp.hpp 23-25), norm of finite components (norm.hpp
      25-31) *)
  Definition c_conj (x : cplx T) := Cx (re x) (- im x).
  Definition c_perp (x : cplx T) := Cx (- im x) (re x).
  Definition c_norm (x : cplx T) := re x * re x + im x * im x.

  (** the value read through a reference while the object assigned to is z *)
  Definition cread (z : cplx T) (r : ref T) : T :=
    match r with
    | Other t => t
    | Comp i => match i with 0%nat => re z | _ => im z end
    end.

  (** member operators taking a T, complex/complex.hpp 80-102 *)
  Definition c_assign_t (z : cplx T) (r : ref T) :=
    let z := Cx (cread z r) (im z) in
    Cx (re z) 0.
  Definition c_add_assign_t (z : cplx T) (r : ref T) := Cx (re z + cread z r) (im z).
  Definition c_sub_assign_t (z : cplx T) (r : ref T) := Cx (re z - cread z r) (im z).
  Definition c_mul_assign_t (z : cplx T) (r : ref T) :=
    let z := Cx (re z * cread z r) (im z) in
    Cx (re z) (im z * cread z r).
  Definition c_div_assign_t (z : cplx T) (r : ref T) :=
    let z := Cx (re z / cread z r) (im z) in
    Cx (re z) (im z / cread z r).

  (** member operators taking a complex, 103-140 (X = T) *)
  Definition c_assign (z : cplx T) (r : zref (cplx T)) :=
    let z := Cx (re (zread z r)) (im z) in
    Cx (re z) (im (zread z r)).
  Definition c_add_assign (z : cplx T) (r : zref (cplx T)) :=
    let z := Cx (re z + re (zread z r)) (im z) in
    Cx (re z) (im z + im (zread z r)).
  Definition c_sub_assign (z : cplx T) (r : zref (cplx T)) :=
    let z := Cx (re z - re (zread z r)) (im z) in
    Cx (re z) (im z - im (zread z r)).
  Definition c_mul_assign (z : cplx T) (r : zref (cplx T)) :=
    let w := zread z r in
    Cx (re z * re w - im z * im w) (re z * im w + im z * re w).
  Definition c_div_assign (z : cplx T) (r : zref (cplx T)) :=
    let w := zread z r in
    let n := complex_norm w in
    Cx ((re z * re w + im z * im w) / n) ((im z * re w - re z * im w) / n).

  (** begin, end, cbegin, cend as indices into elems_, 142-171 *)
  Definition c_begin := 0%nat.
  Definition c_end := 2%nat.
  Definition c_cbegin := 0%nat.
  Definition c_cend := 0%nat.
  Definition c_elems (z : cplx T) : list T := [re z; im z].

  (** ** quaternion.  [sp] tells the explicit specializations for float, double and long double
      from the primary template (math/quaternion/quaternion.hpp 343-348, 643-690). *)
  Variable sp : bool.

  (** the constructor taking four T, 100-107 and 367-374 *)
  Definition q_make (a b c d : T) : quat T := if sp then Qt a a c d else Qt a b c d.
  (** the constructor taking a T: the others default to zero *)
  Definition q_of_t (a : T) : quat T := q_make a 0 0 0.
  (** the constructor taking two complex, 108-113 and 375-380 *)
  Definition q_of_c (z0 z1 : cplx T) : quat T := Qt (re z0) (im z0) (re z1) (im z1).

  (** accessors, 24-47 *)
  Definition q_real (q : quat T) : T := qa q.
  Definition q_unreal (q : quat T) : quat T := q_make 0 (qb q) (qc q) (qd q).
  Definition q_c1 (q : quat T) : cplx T := Cx (qa q) (qb q).
  Definition q_c2 (q : quat T) : cplx T := Cx (qc q) (qd q).

  (** operator+ (math/quaternion/arithmetic_operators.hpp 19-68) *)
  Definition t_add_q (x : T) (q : quat T) := q_make (x + qa q) (qb q) (qc q) (qd q).
  Definition q_add_t (q : quat T) (x : T) := q_make (qa q + x) (qb q) (qc q) (qd q).
  Definition c_add_q (z : cplx T) (q : quat T) := q_make (re z + qa q) (im z + qb q) (qc q) (qd q).
  Definition q_add_c (q : quat T) (z : cplx T) := q_make (qa q + re z) (qb q + im z) (qc q) (qd q).
  Definition q_add (p q : quat T) := q_make (qa p + qa q) (qb p + qb q) (qc p + qc q) (qd p + qd q).
  (** operator-, 72-121 *)
  Definition t_sub_q (x : T) (q : quat T) := q_make (x - qa q) (qb q) (qc q) (qd q).
  Definition q_sub_t (q : quat T) (x : T) := q_make (qa q - x) (qb q) (qc q) (qd q).
  Definition c_sub_q (z : cplx T) (q : quat T) := q_make (re z - qa q) (im z - qb q) (qc q) (qd q).
  Definition q_sub_c (q : quat T) (z : cplx T) := q_make (qa q - re z) (qb q - im z) (qc q) (qd q).
  Definition q_sub (p q : quat T) := q_make (qa p - qa q) (qb p - qb q) (qc p - qc q) (qd p - qd q).
  (** operator* with a T, 125-144; of quaternions, 174-192 *)
  Definition t_mul_q (x : T) (q : quat T) := q_make (x * qa q) (x * qb q) (x * qc q) (x * qd q).
  Definition q_mul_t (q : quat T) (x : T) := q_make (qa q * x) (qb q * x) (qc q * x) (qd q * x).
  Definition mul_qq_impl (a b c d ar br cr dr : T) :=
    q_make
      (a * ar - b * br - c * cr - d * dr)
      (a * br + b * ar + c * dr - d * cr)
      (a * cr - b * dr + c * ar + d * br)
      (a * dr + b * cr - c * br + d * ar).
  Definition q_mul (p q : quat T) :=
    mul_qq_impl (qa p) (qb p) (qc p) (qd p) (qa q) (qb q) (qc q) (qd q).
  (** operator/ with a T, 196-215 *)
  Definition t_div_q (x : T) (q : quat T) := q_make (x / qa q) (x / qb q) (x / qc q) (x / qd q).
  Definition q_div_t (q : quat T) (x : T) := q_make (qa q / x) (qb q / x) (qc q / x) (qd q / x).
  (** unary -, 294-298 *)
  Definition q_neg (q : quat T) := q_make (- qa q) (- qb q) (- qc q) (- qd q).
  (** operator==, 304-348 *)
  Definition t_eqb_q (x : T) (q : quat T) := (qa q == x) && (qb q == 0) && (qc q == 0) && (qd q == 0).
  Definition q_eqb_t (q : quat T) (x : T) := (qa q == x) && (qb q == 0) && (qc q == 0) && (qd q == 0).
  Definition c_eqb_q (z : cplx T) (q : quat T) :=
    (qa q == re z) && (qb q == im z) && (qc q == 0) && (qd q == 0).
  Definition q_eqb_c (q : quat T) (z : cplx T) :=
    (qa q == re z) && (qb q == im z) && (qc q == 0) && (qd q == 0).
  Definition q_eqb (p q : quat T) :=
    (qa q == qa p) && (qb q == qb p) && (qc q == qc p) && (qd q == qd p).

  (** conj (conj.hpp 21-28), norm (norm.hpp 24-26) *)
  Definition q_conj (q : quat T) := q_make (qa q) (- qb q) (- qc q) (- qd q).
  Definition q_norm (q : quat T) : T := q_real (q_mul q (q_conj q)).

  (** detail: sum and abs_sum (detail/sum.hpp 30-38), the largest component in magnitude (abs_max.hpp
      30-33; max_element returns the first largest) *)
  Definition sum (l : list T) : T := fold_left (fun s x => s + x) l 0.
  Definition abs_sum (l : list T) : T := fold_left (fun s x => tabs K s + tabs K x) l 0.
  Fixpoint max_element (m : T) (l : list T) : T :=
    match l with
    | [] => m
    | x :: l' => if tltb K (tabs K m) (tabs K x) then max_element x l' else max_element m l'
    end.
  Definition abs_max (x : T) (l : list T) : T := tabs K (max_element x l).

  (** l1 (l1.hpp 23-32), sup (sup.hpp 23-32) *)
  Definition q_l1 (q : quat T) : T := abs_sum [qa q; qb q; qc q; qd q].
  Definition q_sup (q : quat T) : T := abs_max (qa q) [qb q; qc q; qd q].

  (** the value read through a reference while the object assigned to is q *)
  Definition qread (q : quat T) (r : ref T) : T :=
    match r with
    | Other t => t
    | Comp i => match i with 0%nat => qa q | 1%nat => qb q | 2%nat => qc q | _ => qd q end
    end.

  (** member operators: the primary template computes all components before it stores (125-254),
      the specializations of +=, -=, and those of *= and /= by a T store one by one (381-477) *)
  Definition q_assign_t (q : quat T) (r : ref T) : quat T :=   (* 65-69 *)
    let q := Qt (qread q r) (qb q) (qc q) (qd q) in
    Qt (qa q) 0 0 0.
  Definition q_assign_c (q : quat T) (z : cplx T) : quat T := Qt (re z) (im z) 0 0.   (* 70-75 *)

  Definition q_add_assign_t (q : quat T) (r : ref T) := Qt (qa q + qread q r) (qb q) (qc q) (qd q).
  Definition q_sub_assign_t (q : quat T) (r : ref T) := Qt (qa q - qread q r) (qb q) (qc q) (qd q).
  Definition q_add_assign_c (q : quat T) (z : cplx T) := Qt (qa q + re z) (qb q + im z) (qc q) (qd q).
  Definition q_sub_assign_c (q : quat T) (z : cplx T) := Qt (qa q - re z) (qb q - im z) (qc q) (qd q).

  Definition q_add_assign (q : quat T) (r : zref (quat T)) : quat T :=
    if sp then
      let q := Qt (qa q + qa (zread q r)) (qb q) (qc q) (qd q) in
      let q := Qt (qa q) (qb q + qb (zread q r)) (qc q) (qd q) in
      let q := Qt (qa q) (qb q) (qc q + qc (zread q r)) (qd q) in
      Qt (qa q) (qb q) (qc q) (qd q + qd (zread q r))
    else
      let w := zread q r in
      Qt (qa q + qa w) (qb q + qb w) (qc q + qc w) (qd q + qd w).
  Definition q_sub_assign (q : quat T) (r : zref (quat T)) : quat T :=
    if sp then
      let q := Qt (qa q - qa (zread q r)) (qb q) (qc q) (qd q) in
      let q := Qt (qa q) (qb q - qb (zread q r)) (qc q) (qd q) in
      let q := Qt (qa q) (qb q) (qc q - qc (zread q r)) (qd q) in
      Qt (qa q) (qb q) (qc q) (qd q - qd (zread q r))
    else
      let w := zread q r in
      Qt (qa q - qa w) (qb q - qb w) (qc q - qc w) (qd q - qd w).

  Definition q_mul_assign_t (q : quat T) (r : ref T) : quat T :=
    if sp then
      let q := Qt (qa q * qread q r) (qb q) (qc q) (qd q) in
      let q := Qt (qa q) (qb q * qread q r) (qc q) (qd q) in
      let q := Qt (qa q) (qb q) (qc q * qread q r) (qd q) in
      Qt (qa q) (qb q) (qc q) (qd q * qread q r)
    else
      let x := qread q r in
      Qt (qa q * x) (qb q * x) (qc q * x) (qd q * x).
  Definition q_div_assign_t (q : quat T) (r : ref T) : quat T :=
    if sp then
      let q := Qt (qa q / qread q r) (qb q) (qc q) (qd q) in
      let q := Qt (qa q) (qb q / qread q r) (qc q) (qd q) in
      let q := Qt (qa q) (qb q) (qc q / qread q r) (qd q) in
      Qt (qa q) (qb q) (qc q) (qd q / qread q r)
    else
      let x := qread q r in
      Qt (qa q / x) (qb q / x) (qc q / x) (qd q / x).

  (** *= by a complex, 184-196 and 438-450 *)
  Definition q_mul_assign_c (q : quat T) (z : cplx T) : quat T :=
    let ar := re z in
    let br := im z in
    Qt (qa q * ar - qb q * br) (qa q * br + qb q * ar) (qc q * ar + qd q * br) ((- qc q) * br + qd q * ar).
  (** *= by a quaternion, 198-212 and 454-468 *)
  Definition q_mul_assign (q : quat T) (r : zref (quat T)) : quat T :=
    let w := zread q r in
    let ar := qa w in
    let br := qb w in
    let cr := qc w in
    let dr := qd w in
    Qt (qa q * ar - qb q * br - qc q * cr - qd q * dr)
       (qa q * br + qb q * ar + qc q * dr - qd q * cr)
       (qa q * cr - qb q * dr + qc q * ar + qd q * br)
       (qa q * dr + qb q * cr - qc q * br + qd q * ar).

  (** /= by a complex, 224-237; the specializations scale by the largest component first, 480-500 *)
  Definition q_div_assign_c (q : quat T) (z : cplx T) : quat T :=
    if sp then
      let mixam := 1 / abs_max (re z) [im z] in
      let r0 := re z * mixam in
      let r1 := im z * mixam in
      let s0 := qa q * r0 + qb q * r1 in
      let s1 := (- qa q) * r1 + qb q * r0 in
      let s2 := qc q * r0 - qd q * r1 in
      let s3 := qc q * r1 + qd q * r0 in
      let f := mixam / sum [r0 * r0; r1 * r1] in
      Qt (s0 * f) (s1 * f) (s2 * f) (s3 * f)
    else
      let ar := re z in
      let br := im z in
      let denominator := ar * ar + br * br in
      Qt ((qa q * ar + qb q * br) / denominator)
         (((- qa q) * br + qb q * ar) / denominator)
         ((qc q * ar - qd q * br) / denominator)
         ((qc q * br + qd q * ar) / denominator).
  (** /= by a quaternion, 239-254 and 504-526 *)
  Definition q_div_assign (q : quat T) (r : zref (quat T)) : quat T :=
    let w := zread q r in
    if sp then
      let mixam := 1 / abs_max (qa w) [qb w; qc w; qd w] in
      let r0 := qa w * mixam in
      let r1 := qb w * mixam in
      let r2 := qc w * mixam in
      let r3 := qd w * mixam in
      let s0 := qa q * r0 + qb q * r1 + qc q * r2 + qd q * r3 in
      let s1 := (- qa q) * r1 + qb q * r0 - qc q * r3 + qd q * r2 in
      let s2 := (- qa q) * r2 + qb q * r3 + qc q * r0 - qd q * r1 in
      let s3 := (- qa q) * r3 - qb q * r2 + qc q * r1 + qd q * r0 in
      let f := mixam / sum [r0 * r0; r1 * r1; r2 * r2; r3 * r3] in
      Qt (s0 * f) (s1 * f) (s2 * f) (s3 * f)
    else
      let ar := qa w in
      let br := qb w in
      let cr := qc w in
      let dr := qd w in
      let denominator := ar * ar + br * br + cr * cr + dr * dr in
      Qt ((qa q * ar + qb q * br + qc q * cr + qd q * dr) / denominator)
         (((- qa q) * br + qb q * ar - qc q * dr + qd q * cr) / denominator)
         (((- qa q) * cr + qb q * dr + qc q * ar - qd q * br) / denominator)
         (((- qa q) * dr - qb q * cr + qc q * br + qd q * ar) / denominator).

  (** begin, end, cbegin, cend as indices into elems_, 256-285 *)
  Definition q_begin := 0%nat.
  Definition q_end := 4%nat.
  Definition q_cbegin := 0%nat.
  Definition q_cend := 0%nat.
  Definition q_elems (q : quat T) : list T := [qa q; qb q; qc q; qd q].
End Cq.
