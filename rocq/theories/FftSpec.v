(** What the transforms of FftModel should compute: the discrete Fourier transform over the real
    numbers, written with sums of reals. *)
From Coq Require Import List Arith Reals.
From Verif Require Import Base CqModel FftModel.
Import ListNotations.
Local Open Scope R_scope.

(** the real numbers as component type *)
Definition Rops : ops R :=
  Ops R 0 1 Rplus Rminus Rmult Rdiv Ropp
    (fun x y => if Req_EM_T x y then true else false)
    (fun x y => if Rlt_dec x y then true else false) Rabs.
Definition Rtrig : trig R := Trig R cos sin (PI / 2) (2 * PI) INR.

(** f 0 + ... + f (n-1) *)
Fixpoint rsum (n : nat) (f : nat -> R) : R :=
  match n with
  | O => 0
  | S n' => rsum n' f + f n'
  end.

(** element j of x *)
Definition at_re (x : list (cplx R)) (j : nat) : R := re (nth j x (Cx 0 0)).
Definition at_im (x : list (cplx R)) (j : nat) : R := im (nth j x (Cx 0 0)).

(** the angle 2 pi j k / n *)
Definition angle (n j k : nat) : R := 2 * PI * INR (j * k) / INR n.

(** sum of x_j e^(-2 pi i j k / n), over the first n elements of x *)
Definition dft_at (n : nat) (x : list (cplx R)) (k : nat) : cplx R :=
  Cx (rsum n (fun j => at_re x j * cos (angle n j k) + at_im x j * sin (angle n j k)))
     (rsum n (fun j => at_im x j * cos (angle n j k) - at_re x j * sin (angle n j k))).

(** sum of x_j e^(2 pi i j k / n) *)
Definition dft_plus_at (n : nat) (x : list (cplx R)) (k : nat) : cplx R :=
  Cx (rsum n (fun j => at_re x j * cos (angle n j k) - at_im x j * sin (angle n j k)))
     (rsum n (fun j => at_im x j * cos (angle n j k) + at_re x j * sin (angle n j k))).

(** the transform of the whole list, and its inverse *)
Definition dft (x : list (cplx R)) : list (cplx R) :=
  map (dft_at (length x) x) (seq 0 (length x)).
Definition dft_plus (x : list (cplx R)) : list (cplx R) :=
  map (dft_plus_at (length x) x) (seq 0 (length x)).
Definition idft (x : list (cplx R)) : list (cplx R) :=
  map (fun z => Cx (re z / INR (length x)) (im z / INR (length x))) (dft_plus x).
(** coefficient k of the inverse *)
Definition idft_at (x : list (cplx R)) (k : nat) : cplx R :=
  Cx (re (dft_plus_at (length x) x k) / INR (length x)) (im (dft_plus_at (length x) x k) / INR (length x)).

(** enough recursion depth for a range of m elements: logarithmic for random access iterators,
    linear for others *)
Definition deep (ra : bool) (d m : nat) : Prop :=
  if ra then (exists e, d = S e /\ (m <= 2 ^ e)%nat) else (m < d)%nat.

(** the result r with its first elements, as many as x has, replaced by g 0, g 1, ... *)
Definition stored (g : nat -> cplx R) (x r : list (cplx R)) : list (cplx R) :=
  map (fun i => if (i <? length x)%nat then g i else nth i r (Cx 0 0)) (seq 0 (length r)).

(** sums over all of x of x_j e^(-2 pi i j k / m), and of x_j e^(2 pi i j k / m) divided by m *)
Definition dft_over (m : nat) (x : list (cplx R)) (k : nat) : cplx R :=
  Cx (rsum (length x) (fun j => at_re x j * cos (angle m j k) + at_im x j * sin (angle m j k)))
     (rsum (length x) (fun j => at_im x j * cos (angle m j k) - at_re x j * sin (angle m j k))).
Definition idft_over (m : nat) (x : list (cplx R)) (k : nat) : cplx R :=
  Cx (rsum (length x) (fun j => at_re x j * cos (angle m j k) - at_im x j * sin (angle m j k)) / INR m)
     (rsum (length x) (fun j => at_im x j * cos (angle m j k) + at_re x j * sin (angle m j k)) / INR m).

(** the first m elements of x, followed by zeros if there are fewer *)
Definition padded (m : nat) (x : list (cplx R)) : list (cplx R) :=
  firstn m x ++ repeat (Cx 0 0) (m - length x).
