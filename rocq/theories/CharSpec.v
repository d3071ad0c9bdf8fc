(** What character classification and integer parsing are supposed to do (C 7.4, 7.20.1). *)
From Coq Require Import List Arith ZArith Bool.
From Verif Require Import BitModel.
Import ListNotations.
Open Scope Z_scope.

(** ** ASCII classes *)
Definition Upper (c : Z) : Prop := 65 <= c <= 90.
Definition Lower (c : Z) : Prop := 97 <= c <= 122.
Definition Digit (c : Z) : Prop := 48 <= c <= 57.
Definition Alpha (c : Z) : Prop := Upper c \/ Lower c.
Definition Alnum (c : Z) : Prop := Alpha c \/ Digit c.
Definition Xdigit (c : Z) : Prop := Digit c \/ 65 <= c <= 70 \/ 97 <= c <= 102.
Definition Space (c : Z) : Prop := c = 32 \/ 9 <= c <= 13.
Definition Blank (c : Z) : Prop := c = 32 \/ c = 9.
Definition Cntrl (c : Z) : Prop := 0 <= c <= 31 \/ c = 127.
Definition Graph (c : Z) : Prop := 33 <= c <= 126.
Definition Print (c : Z) : Prop := 32 <= c <= 126.
Definition Punct (c : Z) : Prop := Graph c /\ ~ Alnum c.

(** ** strtol *)

(** the weight of a letter or digit, -1 if it is neither *)
Definition weight (c : Z) : Z :=
  if (48 <=? c) && (c <=? 57) then c - 48
  else if (97 <=? c) && (c <=? 122) then c - 97 + 10
  else if (65 <=? c) && (c <=? 90) then c - 65 + 10
  else -1.
Definition is_dig (b c : Z) : bool := (0 <=? weight c) && (weight c <? b).
Definition is_sp (c : Z) : bool := (c =? 32) || (9 <=? c) && (c <=? 13).

(** the longest prefix with property [f], and what follows it *)
Fixpoint run (f : Z -> bool) (s : list Z) : list Z :=
  match s with
  | c :: s' => if f c then c :: run f s' else []
  | [] => []
  end.
Fixpoint skip (f : Z -> bool) (s : list Z) : list Z :=
  match s with
  | c :: s' => if f c then skip f s' else s
  | [] => []
  end.
Definition value (b : Z) (ds : list Z) : Z := fold_left (fun v c => v * b + weight c) ds 0.

(** the sign and what follows it *)
Definition sign (s : list Z) : bool * list Z :=
  match s with
  | c :: s' => if c =? 45 then (true, s') else if c =? 43 then (false, s') else (false, s)
  | [] => (false, [])
  end.
(** "0x" or "0X" in front *)
Definition zero_x (s : list Z) : bool :=
  match s with
  | a :: b :: _ => (a =? 48) && ((b =? 120) || (b =? 88))
  | _ => false
  end.
(** a hexadecimal constant: 0x and at least one hexadecimal digit *)
Definition hex_form (s : list Z) : bool :=
  zero_x s && match s with _ :: _ :: c :: _ => is_dig 16 c | _ => false end.
Definition starts (a : Z) (s : list Z) : bool := match s with c :: _ => c =? a | [] => false end.

(** the base, when 0 means "as in a C constant" *)
Definition radix (base : Z) (s : list Z) : Z :=
  if base =? 0 then if hex_form s then 16 else if starts 48 s then 8 else 10 else base.
(** the digits *)
Definition digits_of (base : Z) (s : list Z) : list Z :=
  run (is_dig (radix base s)) (if (radix base s =? 16) && hex_form s then skipn 2 s else s).

(** the sign and the absolute value of the number denoted by the string *)
Definition denotes (base : Z) (s : list Z) : bool * Z :=
  let '(neg, u) := sign (skip is_sp s) in (neg, value (radix base u) (digits_of base u)).

(** strtol, strtoll, atoi ...: clamped to the limits of a signed type [t] *)
Definition c_strtol (t : ity) (base : Z) (s : list Z) : Z :=
  let '(neg, v) := denotes base s in if neg then Z.max (tmin t) (- v) else Z.min (tmax t) v.
(** strtoul, strtoull: negation is modulo 2^width; too large values give the maximum *)
Definition c_strtoul (t : ity) (base : Z) (s : list Z) : Z :=
  let '(neg, v) := denotes base s in
  if tmax t <? v then tmax t else if neg then (- v) mod 2 ^ wid t else v.

(** ** Numerals *)

(** [s] is the numeral of [v] in base [b] <= 10 (no superfluous zeros, minus sign if negative) *)
Definition numeral (b v : Z) (s : list Z) : Prop :=
  exists ds, s = (if v <? 0 then [45] else []) ++ ds /\
    Forall (fun c => 48 <= c < 48 + b) ds /\ value b ds = Z.abs v /\
    match ds with [] => False | c :: ds' => c = 48 -> ds' = [] end.

(** every value of a character type of at most 32 bits, signed or not *)
Definition character (c : Z) : Prop := - 2 ^ 31 <= c < 2 ^ 32.

Definition base_ok (base : Z) : Prop := base = 0 \/ 2 <= base <= 36.
(** the string after spaces and sign *)
Definition tail_of (s : list Z) : list Z := snd (sign (skip is_sp s)).
(** the types of at most 64 bits *)
Definition std_type (t : ity) : Prop := (lg t <= 3)%nat.
