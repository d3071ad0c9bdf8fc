(** The component type, and the algebras a user expects. *)
From Coq Require Import List Bool Arith Field_theory Ring_theory.
From Verif Require Import CqModel.
Import ListNotations.

(** The operations of T are those of an ordered field. *)
Record ofield {T} (K : ops T) (inv : T -> T) : Prop := OField {
  of_field : field_theory (t0 K) (t1 K) (tadd K) (tmul K) (tsub K) (tneg K) (tdiv K) inv eq;
  of_eqb : forall x y, teqb K x y = true <-> x = y;
  of_irrefl : forall x, tltb K x x = false;
  of_trans : forall x y z, tltb K x y = true -> tltb K y z = true -> tltb K x z = true;
  of_total : forall x y, tltb K x y = true \/ x = y \/ tltb K y x = true;
  of_add : forall x y z, tltb K x y = true -> tltb K (tadd K x z) (tadd K y z) = true;
  of_mul : forall x y, tltb K (t0 K) x = true -> tltb K (t0 K) y = true -> tltb K (t0 K) (tmul K x y) = true;
  of_abs : forall x, tabs K x = if tltb K x (t0 K) then tneg K x else x
}.

(** Components of the product of two elements of an algebra of dimension n, given the product of
    basis elements as a sign (true: minus) and a basis element. *)
Definition coef {T} (K : ops T) (n : nat) (table : nat -> nat -> bool * nat) (p q : nat -> T) (k : nat) : T :=
  fold_right (fun i acc =>
    fold_right (fun j acc =>
      let '(s, m) := table i j in
      if m =? k then tadd K (if s then tneg K (tmul K (p i) (q j)) else tmul K (p i) (q j)) acc else acc)
      acc (seq 0 n)) (t0 K) (seq 0 n).

(** i * i = -1 *)
Definition ctable (i j : nat) : bool * nat :=
  match i, j with
  | 0, _ => (false, j)
  | _, 0 => (false, i)
  | _, _ => (true, 0)
  end.

(** i i = j j = k k = -1; i j = k, j k = i, k i = j and the opposite in the other order *)
Definition qtable (i j : nat) : bool * nat :=
  match i, j with
  | 0, _ => (false, j)
  | _, 0 => (false, i)
  | 1, 1 | 2, 2 | 3, 3 => (true, 0)
  | 1, 2 => (false, 3)
  | 2, 3 => (false, 1)
  | 3, 1 => (false, 2)
  | 2, 1 => (true, 3)
  | 3, 2 => (true, 1)
  | _, _ => (true, 2)
  end.

Definition ccomp {T} (z : cplx T) (i : nat) : T := match i with 0 => re z | _ => im z end.
Definition qcomp {T} (q : quat T) (i : nat) : T := match i with 0 => qa q | 1 => qb q | 2 => qc q | _ => qd q end.
(** the value an argument passed by reference has before the call *)
Definition cval {T} (z : cplx T) (r : ref T) : T := match r with Other t => t | Comp i => ccomp z i end.
Definition qval {T} (q : quat T) (r : ref T) : T := match r with Other t => t | Comp i => qcomp q i end.

(** A real or complex number as a complex number or quaternion. *)
Definition cx_t {T} (K : ops T) (t : T) : cplx T := Cx t (t0 K).
Definition qt_t {T} (K : ops T) (t : T) : quat T := Qt t (t0 K) (t0 K) (t0 K).
Definition qt_c {T} (K : ops T) (z : cplx T) : quat T := Qt (re z) (im z) (t0 K) (t0 K).

(** Componentwise operations. *)
Definition qmap {T} (f : T -> T) (q : quat T) : quat T := Qt (f (qa q)) (f (qb q)) (f (qc q)) (f (qd q)).
Definition qzip {T} (f : T -> T -> T) (p q : quat T) : quat T :=
  Qt (f (qa p) (qa q)) (f (qb p) (qb q)) (f (qc p) (qc q)) (f (qd p) (qd q)).

(** The quaternion product. *)
Definition hamilton {T} (K : ops T) (p q : quat T) : quat T :=
  let c := coef K 4 qtable (qcomp p) (qcomp q) in Qt (c 0) (c 1) (c 2) (c 3).

Definition nonneg {T} (K : ops T) (x : T) : Prop := x = t0 K \/ tltb K (t0 K) x = true.
