(** Model of sprout/random/linear_feedback_shift.hpp, xor_combine.hpp and taus88.hpp.
    Nothing is proved here.

    UIntType is an unsigned type [t] not narrower than int, so no operand is promoted.  Shifting
    by the width or more is [UB].  The constructors from seed sequences and iterators and the
    streaming operators are not modelled.  The const and the non-const operator() of
    linear_feedback_shift_engine (lines 125-131) are the same expression. *)
From Coq Require Import List Arith ZArith Bool.
From Verif Require Import Base BitModel ShaModel.
Import ListNotations.
Open Scope Z_scope.

(** the template parameters, linear_feedback_shift.hpp line 25 *)
Record lfp : Type := Lfp { ft : ity; fw : Z; fk : Z; fq : Z; fs : Z }.

Section Lfsr.
  Variable md : bool.     (* C++20 rules for signed left shifts *)
  Variable P : lfp.
  Let t := ft P.
  Let w := fw P.
  Let k := fk P.
  Let q := fq P.
  Let s := fs P.

  (** lines 44-53; detail/integer/integer_mask.hpp 30-57 *)
  Definition wordmask : Z := 2 ^ w - 1.
  Definition lf_max : Z := wordmask.
  (** lines 54-59; the literal 1 is an int, and is converted to UIntType by < and + *)
  Definition lf_seed_1 (x0 : Z) : res Z :=
    b <- shl md i32 1 (w - k) ;;
    if x0 <? conv t b then arith t (x0 + conv t b) else Ok x0.
  Definition lf_seed (x0 : Z) : res Z := lf_seed_1 (Z.land x0 wordmask).
  (** lines 125-131 *)
  Definition lf_step (x : Z) : res (Z * Z) :=
    c <- shl md t wordmask (w - k) ;;
    a <- shl md t (Z.land x (Z.land c wordmask)) s ;;
    b <- shl md t x q ;;
    d <- shr t (Z.land (Z.lxor b x) wordmask) (k - s) ;;
    let y := Z.lxor a d in
    Ok (y, y).
End Lfsr.

Section Xor.
  Variable il : nat.      (* lg of int *)
  Variable md : bool.
  Variables t1 t2 : ity.  (* the result types of the two engines *)
  Variables s1 s2 : Z.
  Variables S1 S2 : Type.
  Variable step1 : S1 -> res (Z * S1).
  Variable step2 : S2 -> res (Z * S2).

  (** xor_combine.hpp 115-117: the non-const operator() *)
  Definition xc_step (e : S1 * S2) : res (Z * (S1 * S2)) :=
    o1 <- step1 (fst e) ;;
    o2 <- step2 (snd e) ;;
    a <- shl md (promote il t1) (conv t1 (fst o1)) s1 ;;
    b <- shl md (promote il t1) (conv t1 (fst o2)) s2 ;;
    Ok (conv t1 (Z.lxor a b), (snd o1, snd o2)).
  (** lines 47-55, 118-120: the const operator(); the second result is shifted in its own type *)
  Definition xc_step11 (e : S1 * S2) : res (Z * (S1 * S2)) :=
    o1 <- step1 (fst e) ;;
    o2 <- step2 (snd e) ;;
    a <- shl md (promote il t1) (fst o1) s1 ;;
    b <- shl md (promote il t2) (fst o2) s2 ;;
    Ok (conv t1 (Z.lxor a b), (snd o1, snd o2)).
  (** lines 37-42 *)
  Definition xc_max (m1 m2 : Z) : Z := Z.max m1 m2.
End Xor.

(** taus88.hpp 20-31 *)
Definition taus_1 : lfp := Lfp u32 32 31 13 12.
Definition taus_2 : lfp := Lfp u32 32 29 2 4.
Definition taus_3 : lfp := Lfp u32 32 28 3 17.
Definition taus88_step (il : nat) (md : bool) : (Z * Z * Z) -> res (Z * (Z * Z * Z)) :=
  xc_step il md u32 0 0 (Z * Z) Z
    (xc_step il md u32 0 0 Z Z (lf_step md taus_1) (lf_step md taus_2)) (lf_step md taus_3).
(** xor_combine.hpp 61-63 with the constructor of line 89 *)
Definition taus88_seed (md : bool) (x0 : Z) : res (Z * Z * Z) :=
  a <- lf_seed md taus_1 x0 ;; b <- lf_seed md taus_2 x0 ;; c <- lf_seed md taus_3 x0 ;; Ok (a, b, c).
