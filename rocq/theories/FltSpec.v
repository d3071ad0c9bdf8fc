(** Vocabulary for the statements about sprout/math: which magnitudes a floating-point type
    represents, the shape of the IEEE types, and the mathematical meaning of the functions in
    terms of integers (values are integers counting units of 2^-u, so 1.0 is 2^u). *)
From Coq Require Import List Arith ZArith Bool.
From Verif Require Import Base BitModel FltModel.
Import ListNotations.
Open Scope Z_scope.

(** n units are a magnitude of type [f]: at most [prec f] significant bits, a multiple of the
    smallest positive number, below the bound. *)
Definition repr (f : fmt) (n : Z) : Prop :=
  n < 2 ^ hi f /\ exists m k, 0 <= m < 2 ^ prec f /\ lo f <= k /\ n = m * 2 ^ k.

(** x is a value of type [f]. *)
Definition wf (f : fmt) (x : fl) : Prop :=
  match x with Fin _ n => repr f n | _ => True end.

(** IEEE 754 binary interchange formats (and the x87 extended format): the exponent range is
    symmetric and wide enough for the precision and for 64-bit integers. *)
Definition ieee (u : Z) (f : fmt) : Prop :=
  2 <= prec f /\ 0 <= lo f /\ lo f + 2 * prec f <= u + 2 /\ u + prec f < hi f
  /\ u + 64 < hi f /\ lo f + prec f = 2 * u + 3 - hi f /\ hi f <= u + 2 ^ 30.

(** Every value of [f] is a value of [c]. *)
Definition sub_fmt (f c : fmt) : Prop := prec f <= prec c /\ lo c <= lo f /\ hi f <= hi c.

(** float and double in units of 2^-1074; long double (x87) in units of 2^-16445 *)
Definition b32 : fmt := Fmt 24 925 1202.
Definition b64 : fmt := Fmt 53 0 2098.
Definition b80 : fmt := Fmt 64 0 32829.

(** The magnitude n is an integer or is farther from the integer below it than the tolerance
    of math::equal_to, epsilon * max(|x|, 1). *)
Definition clear_of (u : Z) (c : fmt) (n : Z) : Prop :=
  n mod 2 ^ u = 0 \/ Z.max n (2 ^ u) < n mod 2 ^ u * 2 ^ (prec c - 1).

(** The order of the extended reals. *)
Inductive lt_ext : fl -> fl -> Prop :=
| lt_fin s n t m : sg s n < sg t m -> lt_ext (Fin s n) (Fin t m)
| lt_lo s n : lt_ext (Inf true) (Fin s n)
| lt_hi s n : lt_ext (Fin s n) (Inf false)
| lt_inf : lt_ext (Inf true) (Inf false).

Definition is_nan (x : fl) : Prop := match x with Nan _ => True | _ => False end.

(** Same extended real: the same infinity or finite numbers with the same value. *)
Inductive eq_ext : fl -> fl -> Prop :=
| eq_fin s n t m : sg s n = sg t m -> eq_ext (Fin s n) (Fin t m)
| eq_inf s : eq_ext (Inf s) (Inf s).

(** y is the number of type [f] nearest to the non-negative rational a / b and, of two nearest,
    the one with an even last digit; the last digit is at 2^k where 2^k is the distance of the
    neighbours.  (Overflow apart.) *)
Definition nearest (f : fmt) (a b y : Z) : Prop :=
  forall m, repr f m -> Z.abs (b * y - a) <= Z.abs (b * m - a).

(** The binary exponent of the magnitude n > 0: 2^e <= n / 2^u < 2^(e+1). *)
Definition has_exp (u n e : Z) : Prop := 2 ^ (u + e) <= n < 2 ^ (u + e + 1) /\ 0 <= u + e.

(** [lg] returns, for every normal positive number of type [c], the binary exponent to within
    one and an integer that the type's powers of two cover. *)
Definition lg_ok (u : Z) (c : fmt) (lg : fl -> Z) : Prop :=
  forall n e, repr c n -> has_exp u n e -> 2 - (hi c - u) <= e ->
    e - 1 <= lg (Fin false n) <= e + 1 /\ - (hi c - u - 1) <= lg (Fin false n) <= hi c - u - 1.

(** y is x reduced by a nearest integer multiple of b, an even one if two are nearest; q is the
    multiple. *)
Definition ieee_rem (a b r q : Z) : Prop :=
  a = q * b + r /\ 2 * Z.abs r <= Z.abs b /\ (2 * Z.abs r = Z.abs b -> Z.even q = true).

(** The exact binary exponent, the best that the logarithm the code starts from can give. *)
Definition lg_exact (u : Z) (x : fl) : Z :=
  match x with Fin _ n => Z.log2 n - u | _ => 0 end.

(** x with the sign b. *)
Definition set_sign (b : bool) (x : fl) : fl :=
  match x with Nan _ => Nan b | Inf _ => Inf b | Fin _ n => Fin b n end.

(** y is the rational a / b (not negative) with the sign s, rounded to type [f]: a nearest number
    of the type, or an infinity if a / b exceeds them all. *)
Definition rounded (f : fmt) (s : bool) (a b : Z) (y : fl) : Prop :=
  match y with
  | Fin t m => t = s /\ repr f m /\ nearest f a b m
  | Inf t => t = s /\ forall m, repr f m -> b * m < a
  | Nan _ => False
  end.
