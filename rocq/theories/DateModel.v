(** * sprout/ctime/to_time_t.hpp

    int has 32 bits and std::time_t 64 bits (both two's complement); every operation of the C++
    expression is checked for overflow in the type in which it is carried out.

    Not modelled: the overload for the texts of __DATE__ and __TIME__ (45-109).  Its [get_num]
    calls [sprout::detail::char_to_int(c)] (50), but the only templates of this name
    (detail/char_conversion.hpp 41-60) have a first parameter [IntType] that no argument
    determines, so that the overload cannot be instantiated. *)

From Coq Require Import ZArith Bool List.
From Verif Require Import Base BitModel.
Open Scope Z_scope.

Definition i32 : ity := Ity true 2.
Definition time_t : ity := Ity true 3.

(** to_time_t.hpp 20-28.  C++ division truncates: [Z.quot]. *)
Definition to_time_t_impl (year mon day hour min sec : Z) : res Z :=
  a <- arith i32 (Z.quot year 4 - Z.quot year 100) ;;
  a <- arith i32 (a + Z.quot year 400) ;;
  b <- arith i32 (367 * mon) ;;
  a <- arith i32 (a + Z.quot b 12) ;;
  a <- arith i32 (a + day) ;;
  c <- arith i32 (year * 365) ;;
  t <- arith time_t (a + c) ;;
  t <- arith time_t (t - 719499) ;;
  t <- arith time_t (t * 24) ;;
  t <- arith time_t (t + hour) ;;
  t <- arith time_t (t * 60) ;;
  t <- arith time_t (t + min) ;;
  t <- arith time_t (t * 60) ;;
  arith time_t (t + sec).

(** to_time_t.hpp 33-39 *)
Definition to_time_t (year mon day hour min sec : Z) : res Z :=
  if mon <=? 2 then
    y <- arith i32 (year - 1) ;; m <- arith i32 (mon + 10) ;;
    to_time_t_impl y m day hour min sec
  else m <- arith i32 (mon - 2) ;; to_time_t_impl year m day hour min sec.

(** std::tm, the members used *)
Record tm : Type := Tm { tm_year : Z; tm_mon : Z; tm_mday : Z; tm_hour : Z; tm_min : Z; tm_sec : Z }.

(** to_time_t.hpp 40-43 *)
Definition tm_to_time_t (t : tm) : res Z :=
  y <- arith i32 (tm_year t + 1900) ;; m <- arith i32 (tm_mon t + 1) ;;
  to_time_t y m (tm_mday t) (tm_hour t) (tm_min t) (tm_sec t).

(** ctime/difftime.hpp: the two times subtracted as doubles; not modelled. *)
