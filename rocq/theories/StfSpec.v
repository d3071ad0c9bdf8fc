(** What a numeral with a decimal point means. *)
From Coq Require Import List ZArith QArith.
From Verif Require Import CharSpec.
Import ListNotations.
Local Open Scope Z_scope.

(** The integer written by decimal digits. *)
Definition numeral (ds : list Z) : Z := fold_left (fun a c => a * 10 + (c - 48)) ds 0.

(** White space, an optional sign, digits, and an optional point with digits; [neg] is the sign, [di] the digits
    before the point and [df] those behind it. *)
Inductive decimal_text : list Z -> bool -> list Z -> list Z -> Prop :=
| dt_space c s neg di df : Space c -> decimal_text s neg di df -> decimal_text (c :: s) neg di df
| dt_sign c s neg di df : (c = 43 /\ neg = false \/ c = 45 /\ neg = true) -> unsigned_text s di df -> decimal_text (c :: s) neg di df
| dt_none s di df : unsigned_text s di df -> decimal_text s false di df
with unsigned_text : list Z -> list Z -> list Z -> Prop :=
| ut_int di : Forall Digit di -> unsigned_text di di []
| ut_point di df : Forall Digit di -> Forall Digit df -> unsigned_text (di ++ 46 :: df) di df.

(** Its value times a power of ten. *)
Definition text_value (neg : bool) (di df : list Z) (e : Z) : Q :=
  (inject_Z ((if neg then -1 else 1) * numeral (di ++ df)) * Qpower (inject_Z 10) (e - Z.of_nat (length df)))%Q.
