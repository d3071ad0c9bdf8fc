(** Theorems about the floating-point functions of sprout/math (C168-C181). *)
From Coq Require Import List Arith ZArith Bool Lia.
From Verif Require Import Base BitModel BitSpec FltModel FltSpec
  FltProof FltProof2 FltProof3 FltProof4 FltProof5.
Import ListNotations.
Open Scope Z_scope.

(** * C168: floor and ceil *)

Theorem floor_partial : forall u f c, ieee u f -> ieee u c -> sub_fmt f c -> forall ne,
  prec f <= 64 -> forall s n, repr f n ->
  n < 2 ^ 64 * 2 ^ u \/ (ne = true /\ 2 ^ 64 * 2 ^ u < n) ->
  (s = true -> clear_of u c n) ->
  exists m, floor u ne f c (Fin s n) = Ok (Some (Fin s m)) /\ repr f m
    /\ sg s m = sg s n / 2 ^ u * 2 ^ u.
Proof. exact @floor_main. Qed.
Print Assumptions floor_partial.
Theorem ceil_partial : forall u f c, ieee u f -> ieee u c -> sub_fmt f c -> forall ne,
  prec f <= 64 -> forall s n, repr f n ->
  n < 2 ^ 64 * 2 ^ u \/ (ne = true /\ 2 ^ 64 * 2 ^ u < n) ->
  (s = false -> clear_of u c n) ->
  exists m, ceil u ne f c (Fin s n) = Ok (Some (Fin s m)) /\ repr f m
    /\ sg s m = - (- sg s n / 2 ^ u * 2 ^ u).
Proof. exact @ceil_main. Qed.
Print Assumptions ceil_partial.
Example formats_ex : ieee 1074 b32 /\ ieee 1074 b64 /\ ieee 16445 b80 /\ sub_fmt b32 b64
  /\ sub_fmt b64 b64 /\ prec b80 <= 64.
Proof.
  split; [exact b32_ieee|]. split; [exact b64_ieee|]. split; [exact b80_ieee|].
  split; [exact b32_b64|]. split; [exact (fmt_refl b64)|]. cbn [prec b80]. lia.
Qed.
(* -1.5 as a float *)
Example floor_ceil_ex : repr b32 (3 * 2 ^ 1073) /\ 3 * 2 ^ 1073 < 2 ^ 64 * 2 ^ 1074
  /\ clear_of 1074 b64 (3 * 2 ^ 1073) /\ sg true (3 * 2 ^ 1073) / 2 ^ 1074 = -2.
Proof.
  split; [apply b32_repr; lia|]. split; [reflexivity|]. split; [right; reflexivity|reflexivity].
Qed.
Theorem rounding_special_partial : forall u ne f c x,
  (match x with Fin _ n => n = 0 | _ => True end) ->
  floor u ne f c x = Ok (Some x) /\ ceil u ne f c x = Ok (Some x)
  /\ round u ne f c x = Ok (Some x) /\ trunc u ne f x = Ok (Some x).
Proof. exact @special_id. Qed.
Print Assumptions rounding_special_partial.
Theorem floor_tolerance_refuted :
  ~ forall n m, repr b64 n -> n < 2 ^ 1074 ->
    floor 1074 true b64 b64 (Fin true n) = Ok (Some (Fin true m)) ->
    sg true m = sg true n / 2 ^ 1074 * 2 ^ 1074.
Proof. exact @floor_refuted_lemma. Qed.
Print Assumptions floor_tolerance_refuted.
Theorem ceil_tolerance_refuted :
  ~ forall n m, repr b64 n -> n < 2 ^ 1074 ->
    ceil 1074 true b64 b64 (Fin false n) = Ok (Some (Fin false m)) ->
    sg false m = - (- sg false n / 2 ^ 1074 * 2 ^ 1074).
Proof. exact @ceil_refuted_lemma. Qed.
Print Assumptions ceil_tolerance_refuted.

(** * C169: trunc and round *)

Theorem trunc_partial : forall u f, ieee u f -> forall ne, prec f <= 64 -> forall s n, repr f n ->
  n < 2 ^ 64 * 2 ^ u \/ (ne = true /\ 2 ^ 64 * 2 ^ u < n) ->
  trunc u ne f (Fin s n) = Ok (Some (Fin s (n / 2 ^ u * 2 ^ u))).
Proof. exact @trunc_main. Qed.
Print Assumptions trunc_partial.
Theorem round_partial : forall u f c, ieee u f -> ieee u c -> sub_fmt f c -> forall ne,
  prec f <= 64 -> forall s n, repr f n ->
  n < 2 ^ 64 * 2 ^ u \/ (ne = true /\ 2 ^ 64 * 2 ^ u < n) ->
  exists m, round u ne f c (Fin s n) = Ok (Some (Fin s m)) /\ repr f m
    /\ (exists z, m = z * 2 ^ u) /\ 2 * Z.abs (m - n) <= 2 ^ u
    /\ (2 * Z.abs (m - n) = 2 ^ u -> n < m).
Proof. exact @round_main. Qed.
Print Assumptions round_partial.
Example trunc_round_ex : repr b32 (5 * 2 ^ 1073) /\ 5 * 2 ^ 1073 < 2 ^ 64 * 2 ^ 1074
  /\ 5 * 2 ^ 1073 / 2 ^ 1074 = 2.
Proof. split; [apply b32_repr; lia|]. split; reflexivity. Qed.
Theorem rounding_undefined_refuted :
  ~ forall s n, repr b64 n -> floor 1074 true b64 b64 (Fin s n) <> UB
    /\ ceil 1074 true b64 b64 (Fin s n) <> UB /\ round 1074 true b64 b64 (Fin s n) <> UB
    /\ trunc 1074 true b64 (Fin s n) <> UB.
Proof. exact @no_ub_refuted_lemma. Qed.
Print Assumptions rounding_undefined_refuted.
Theorem rounding_limit : forall u ne f c s, ieee u f -> ieee u c -> sub_fmt f c -> prec f < 64 ->
  floor u ne f c (Fin s (2 ^ (u + 64))) = UB
  /\ ceil u ne f c (Fin s (2 ^ (u + 64))) = UB
  /\ round u ne f c (Fin s (2 ^ (u + 64))) = UB
  /\ trunc u ne f (Fin s (2 ^ (u + 64))) = UB.
Proof. exact @limit_ub. Qed.
Print Assumptions rounding_limit.

(** * C170: integer results *)

Theorem itrunc_partial : forall u f, ieee u f -> forall ne t, 32 <= wid t <= 64 ->
  forall s n, repr f n -> tmin t * 2 ^ u <= sg s n <= tmax t * 2 ^ u ->
  itrunc u ne f t (Fin s n) = Ok (Some (Z.quot (sg s n) (2 ^ u))).
Proof. exact @itrunc_main. Qed.
Print Assumptions itrunc_partial.
Theorem ifloor_partial : forall u f, ieee u f -> forall ne t, 32 <= wid t <= 64 ->
  forall s n, repr f n -> tmin t * 2 ^ u <= sg s n <= tmax t * 2 ^ u ->
  (s = true -> clear_of u f n) ->
  ifloor u ne f t (Fin s n) = Ok (Some (sg s n / 2 ^ u)).
Proof. exact @ifloor_main. Qed.
Print Assumptions ifloor_partial.
Theorem iceil_partial : forall u f, ieee u f -> forall ne t, 32 <= wid t <= 64 ->
  forall s n, repr f n -> tmin t * 2 ^ u <= sg s n <= tmax t * 2 ^ u ->
  (s = false -> clear_of u f n) ->
  iceil u ne f t (Fin s n) = Ok (Some (- (- sg s n / 2 ^ u))).
Proof. exact @iceil_main. Qed.
Print Assumptions iceil_partial.
Theorem iround_partial : forall u f, ieee u f -> forall ne t, 32 <= wid t <= 64 ->
  forall s n, repr f n -> tmin t * 2 ^ u <= sg s n <= tmax t * 2 ^ u ->
  exists z, iround u ne f t (Fin s n) = Ok (Some z)
    /\ 2 * Z.abs (z * 2 ^ u - sg s n) <= 2 ^ u
    /\ (2 * Z.abs (z * 2 ^ u - sg s n) = 2 ^ u -> Z.abs (sg s n) < Z.abs (z * 2 ^ u)).
Proof. exact @iround_main. Qed.
Print Assumptions iround_partial.
(* -7.5 as a double, to int *)
Example irounding_ex : 32 <= wid int <= 64 /\ repr b64 (15 * 2 ^ 1073)
  /\ tmin int * 2 ^ 1074 <= sg true (15 * 2 ^ 1073) <= tmax int * 2 ^ 1074
  /\ clear_of 1074 b64 (15 * 2 ^ 1073) /\ sg true (15 * 2 ^ 1073) / 2 ^ 1074 = -8.
Proof.
  split; [split; discriminate|]. split; [apply b64_repr; lia|].
  split; [split; discriminate|]. split; [right; reflexivity|reflexivity].
Qed.
Theorem ifloor_iceil_refuted :
  (~ forall n z, repr b64 n -> n < 2 ^ 1074 ->
     ifloor 1074 true b64 int (Fin true n) = Ok (Some z) -> z * 2 ^ 1074 <= - n)
  /\ (~ forall n z, repr b64 n -> n < 2 ^ 1074 ->
     iceil 1074 true b64 int (Fin false n) = Ok (Some z) -> n <= z * 2 ^ 1074).
Proof. exact @ifloor_refuted_lemma. Qed.
Print Assumptions ifloor_iceil_refuted.
(* the limit INT_MAX converted to float is 2^31, which does not fit *)
Theorem itrunc_limit : forall u ne f, ieee u f -> prec f < 31 ->
  itrunc u ne f int (Fin false (2 ^ (u + 31))) = UB.
Proof. exact @ilimit_ub. Qed.
Print Assumptions itrunc_limit.

(** * C171: integer and fractional part *)

Theorem parts_partial : forall u f, ieee u f -> prec f <= 64 -> forall ne s n, repr f n ->
  n < 2 ^ 64 * 2 ^ u \/ (ne = true /\ 2 ^ 64 * 2 ^ u < n) ->
  frac_int u ne f (Fin s n) = Ok (Some (Fin s (n mod 2 ^ u), Fin s (n / 2 ^ u * 2 ^ u)))
  /\ fractional_part u ne f (Fin s n) = Ok (Some (Fin s (n mod 2 ^ u)))
  /\ is_integer u ne f (Fin s n) = Ok (Some (n mod 2 ^ u =? 0)).
Proof. exact @frac_int_main. Qed.
Print Assumptions parts_partial.
Theorem integer_part_partial : forall u f, ieee u f -> prec f <= 64 -> forall ne s n, repr f n ->
  n < 2 ^ 64 * 2 ^ u \/ (ne = true /\ 2 ^ 64 * 2 ^ u < n) ->
  integer_part u ne f (Fin s n) = Ok (Some (Fin s (n / 2 ^ u * 2 ^ u))).
Proof. exact @integer_part_main. Qed.
Print Assumptions integer_part_partial.
Example parts_ex : repr b64 (7 * 2 ^ 1073) /\ 7 * 2 ^ 1073 mod 2 ^ 1074 = 2 ^ 1073.
Proof. split; [apply b64_repr; lia|reflexivity]. Qed.

(** * C172: classification *)

Theorem classify_partial : forall u f, ieee u f -> forall x, wf f x ->
  fpclassify f x =
    match x with
    | Nan _ => FP_NAN
    | Inf _ => FP_INFINITE
    | Fin _ n => if n =? 0 then FP_ZERO
                 else if n <? 2 ^ (lo f + prec f - 1) then FP_SUBNORMAL else FP_NORMAL
    end
  /\ isnormal f x = (match fpclassify f x with FP_NORMAL => true | _ => false end)
  /\ issubnormal f x = (match fpclassify f x with FP_SUBNORMAL => true | _ => false end).
Proof. exact @classify_main. Qed.
Print Assumptions classify_partial.
Example classify_ex : wf b64 (Fin true (3 * 2 ^ 10)) /\ 3 * 2 ^ 10 < 2 ^ (lo b64 + prec b64 - 1).
Proof. split; [apply b64_repr; lia|reflexivity]. Qed.
Theorem classify_float_refuted :
  ~ forall n, repr b32 n -> 0 < n < 2 ^ (lo b32 + prec b32 - 1) ->
    fpclassify b64 (Fin false n) = FP_SUBNORMAL.
Proof. exact @class_refuted_lemma. Qed.
Print Assumptions classify_float_refuted.

(** * C173: signs *)

Theorem fabs_correct : forall x, (match x with Fin _ n => 0 <= n | _ => True end) ->
  fabs x = set_sign false x.
Proof. exact @fabs_main. Qed.
Print Assumptions fabs_correct.
Theorem signbit_partial : forall x, ~ is_nan x ->
  (match x with Fin _ n => 0 < n | _ => True end) -> signbit x = isneg x.
Proof. exact @signbit_main. Qed.
Print Assumptions signbit_partial.
Theorem copysign_partial : forall x y, (match x with Fin _ n => 0 <= n | _ => True end) ->
  ~ is_nan y -> (match y with Fin _ n => 0 < n | _ => True end) ->
  copysign x y = set_sign (isneg y) x.
Proof. exact @copysign_main. Qed.
Print Assumptions copysign_partial.
Example signs_ex : copysign (Nan false) (Fin true 3) = Nan true
  /\ copysign (Fin true 0) (Inf false) = Fin false 0 /\ fabs (Fin true 0) = Fin false 0.
Proof. split; [|split]; reflexivity. Qed.
Theorem negative_zero_refuted :
  (~ forall x, ~ is_nan x -> signbit x = isneg x)
  /\ (~ forall x y, ~ is_nan x -> ~ is_nan y -> copysign x y = set_sign (isneg y) x).
Proof. exact @sign_refuted_lemma. Qed.
Print Assumptions negative_zero_refuted.

(** * C174: comparison *)

Theorem compare_partial : forall x y,
  (isless x y = true <-> lt_ext x y) /\ (isgreater x y = true <-> lt_ext y x)
  /\ (isgreaterequal x y = true <-> lt_ext y x \/ eq_ext y x)
  /\ (islessgreater x y = true <-> lt_ext x y \/ lt_ext y x)
  /\ (isunordered x y = true <-> is_nan x \/ is_nan y)
  /\ (isunordered x y = false -> lt_ext x y \/ eq_ext x y \/ lt_ext y x).
Proof. exact @compare_main. Qed.
Print Assumptions compare_partial.
Example compare_ex : isless (Inf true) (Fin true 5) = true /\ isless (Fin true 0) (Fin false 0) = false
  /\ isgreaterequal (Fin true 0) (Fin false 0) = true.
Proof. split; [|split]; reflexivity. Qed.
Theorem islessequal_refuted : ~ forall x y, islessequal x y = true <-> lt_ext x y \/ eq_ext x y.
Proof. exact @lessequal_refuted_lemma. Qed.
Print Assumptions islessequal_refuted.
Theorem islessequal_is_less : forall x y, islessequal x y = true <-> lt_ext x y.
Proof. exact @lessequal_strict. Qed.
Print Assumptions islessequal_is_less.

(** * C175: fmin, fmax *)

Theorem fmin_correct : forall x y, ~ is_nan x -> ~ is_nan y ->
  (fmin x y = x \/ fmin x y = y) /\ ~ lt_ext x (fmin x y) /\ ~ lt_ext y (fmin x y).
Proof. exact @fmin_main. Qed.
Print Assumptions fmin_correct.
Theorem fmax_correct : forall x y, ~ is_nan x -> ~ is_nan y ->
  (fmax x y = x \/ fmax x y = y) /\ ~ lt_ext (fmax x y) x /\ ~ lt_ext (fmax x y) y.
Proof. exact @fmax_main. Qed.
Print Assumptions fmax_correct.
Theorem fmin_fmax_nan : forall x y b, fmin x (Nan b) = x /\ fmax x (Nan b) = x
  /\ (~ is_nan y -> fmin (Nan b) y = y /\ fmax (Nan b) y = y).
Proof. exact @fminmax_nan. Qed.
Print Assumptions fmin_fmax_nan.
Example fmin_fmax_ex : fmin (Fin true 3) (Inf true) = Inf true /\ fmax (Fin true 3) (Fin false 2) = Fin false 2.
Proof. split; reflexivity. Qed.

(** * C176: fdim and fma *)

Theorem fdim_partial : forall f s n t m, 1 <= prec f -> 0 <= lo f -> 0 <= n -> 0 <= m ->
  (sg s n <= sg t m -> fdim f (Fin s n) (Fin t m) = Fin false 0)
  /\ (sg t m < sg s n -> rounded f false (sg s n - sg t m) 1 (fdim f (Fin s n) (Fin t m))).
Proof. exact @fdim_user. Qed.
Print Assumptions fdim_partial.
Theorem fma_partial : forall u f s n t m w k p, 1 <= prec f -> 0 <= lo f -> 0 < 2 ^ u -> repr f p ->
  p * 2 ^ u = n * m -> sg (xorb s t) p + sg w k <> 0 ->
  rounded f (sg (xorb s t) p + sg w k <? 0) (Z.abs (sg (xorb s t) p + sg w k)) 1
    (fma u f (Fin s n) (Fin t m) (Fin w k)).
Proof. exact @fma_user. Qed.
Print Assumptions fma_partial.
(* 1.5 * 2 - 1 *)
Example fma_ex : repr b64 (3 * 2 ^ 1074) /\ 3 * 2 ^ 1074 * 2 ^ 1074 = 3 * 2 ^ 1073 * 2 ^ 1075
  /\ sg (xorb false false) (3 * 2 ^ 1074) + sg true (2 ^ 1074) <> 0.
Proof. split; [apply b64_repr; lia|]. split; [reflexivity|discriminate]. Qed.
Theorem fdim_infinity_refuted :
  ~ forall x y, ~ is_nan x -> ~ is_nan y -> lt_ext y x \/ fdim b64 x y = Fin false 0.
Proof. exact @fdim_refuted_lemma. Qed.
Print Assumptions fdim_infinity_refuted.
Theorem fma_single_rounding_refuted :
  ~ forall s n t m w k, repr b64 n -> repr b64 m -> repr b64 k ->
    sg (xorb s t) (n * m) + sg w k * 2 ^ 1074 <> 0 ->
    rounded b64 (sg (xorb s t) (n * m) + sg w k * 2 ^ 1074 <? 0)
      (Z.abs (sg (xorb s t) (n * m) + sg w k * 2 ^ 1074)) (2 ^ 1074)
      (fma 1074 b64 (Fin s n) (Fin t m) (Fin w k)).
Proof. exact @fma_refuted_lemma. Qed.
Print Assumptions fma_single_rounding_refuted.

(** * C177: math::equal_to *)

Theorem equal_to_reflexive : forall u f x, ~ is_nan x -> equal_to u f x x = true.
Proof. exact @equal_refl. Qed.
Print Assumptions equal_to_reflexive.
Theorem equal_to_symmetric : forall u f s n t m, 0 <= lo f -> 0 <= n -> 0 <= m ->
  equal_to u f (Fin s n) (Fin t m) = equal_to u f (Fin t m) (Fin s n).
Proof. exact @equal_sym. Qed.
Print Assumptions equal_to_symmetric.
Theorem equal_to_close : forall u f s n t m, ieee u f -> repr f n -> repr f m ->
  let d := Z.abs (sg s n - sg t m) * 2 ^ (prec f - 1) in
  let g := Z.max (Z.max n m) (2 ^ u) in
  (d <= g -> equal_to u f (Fin s n) (Fin t m) = true)
  /\ (equal_to u f (Fin s n) (Fin t m) = true -> d <= 2 * g).
Proof. exact @equal_near. Qed.
Print Assumptions equal_to_close.
Example equal_to_ex : repr b64 (3 * 2 ^ 1074) /\ repr b64 (5 * 2 ^ 1000).
Proof. split; apply b64_repr; lia. Qed.
Theorem equal_to_transitive_refuted :
  ~ forall x y z, wf b64 x -> wf b64 y -> wf b64 z -> equal_to 1074 b64 x y = true ->
    equal_to 1074 b64 y z = true -> equal_to 1074 b64 x z = true.
Proof. exact @trans_refuted_lemma. Qed.
Print Assumptions equal_to_transitive_refuted.

(** * C178: ldexp, scalbn *)

Theorem ldexp_exact_partial : forall u f c, ieee u f -> ieee u c -> sub_fmt f c ->
  forall s n e m, repr f n -> repr f m ->
  - (hi c - u - 1) <= e <= hi c - u - 1 -> m * 2 ^ u = n * 2 ^ (u + e) ->
  ldexp u f c (Fin s n) e = Fin s m.
Proof. exact @ldexp_main. Qed.
Print Assumptions ldexp_exact_partial.
Theorem ldexp_rounded_partial : forall u c, ieee u c -> forall s n e, repr c n -> e <> 0 -> 0 < n ->
  - (hi c - u - 1) <= e <= hi c - u - 1 ->
  rounded c s (n * 2 ^ (u + e)) (2 ^ u) (ldexp u c c (Fin s n) e).
Proof. exact (fun u c J => @ldexp_round u c c J J). Qed.
Print Assumptions ldexp_rounded_partial.
(* 3 * 2^-5 *)
Example ldexp_ex : repr b32 (3 * 2 ^ 1074) /\ repr b32 (3 * 2 ^ 1069)
  /\ - (hi b64 - 1074 - 1) <= -5 <= hi b64 - 1074 - 1
  /\ 3 * 2 ^ 1069 * 2 ^ 1074 = 3 * 2 ^ 1074 * 2 ^ (1074 + -5).
Proof.
  split; [apply b32_repr; lia|]. split; [apply b32_repr; lia|].
  split; [cbn [hi b64]; lia|reflexivity].
Qed.
Theorem ldexp_outside : forall u f c s n e, ieee u f -> ieee u c -> sub_fmt f c -> repr f n -> 0 < n ->
  (e < - (hi c - u - 1) -> ldexp u f c (Fin s n) e = Fin s 0)
  /\ (hi c - u - 1 < e -> ldexp u f c (Fin s n) e = Inf s).
Proof. exact @ldexp_wrong. Qed.
Print Assumptions ldexp_outside.
Theorem ldexp_refuted :
  ~ forall n e m, repr b64 n -> repr b64 m -> m * 2 ^ 1030 = n -> e = -1030 ->
    ldexp 1074 b64 b64 (Fin false n) e = Fin false m.
Proof. exact @ldexp_refuted_lemma. Qed.
Print Assumptions ldexp_refuted.

(** * C179: ilogb, frexp *)

Theorem ilogb_partial : forall u f c, ieee u f -> ieee u c -> sub_fmt f c ->
  forall lg, lg_ok u c lg -> forall k s n, repr f n -> 2 ^ (lo c + prec c - 1) <= n ->
  exists e, ilogb u lg (S k) c (Fin s n) = Ok e /\ has_exp u n e.
Proof. exact @ilogb_user. Qed.
Print Assumptions ilogb_partial.
Theorem frexp_partial : forall u f c, ieee u f -> ieee u c -> sub_fmt f c ->
  forall lg, lg_ok u c lg -> forall k s n, repr f n ->
  2 ^ (lo f + prec f - 1) <= n < 2 ^ (hi f - 1) ->
  exists m e, float2_sig_exp u lg (S k) f c (Fin s n) = Ok (Fin s m, e)
    /\ 2 ^ (u - 1) <= m < 2 ^ u /\ m * 2 ^ (u + e) = n * 2 ^ u /\ 0 <= u + e.
Proof. exact @frexp_main. Qed.
Print Assumptions frexp_partial.
Example logarithm_ex : lg_ok 1074 b64 (lg_exact 1074).
Proof. exact (lg_exact_ok 1074 b64 b64_ieee). Qed.
Example frexp_ex : repr b32 (5 * 2 ^ 1074)
  /\ 2 ^ (lo b32 + prec b32 - 1) <= 5 * 2 ^ 1074 < 2 ^ (hi b32 - 1).
Proof. split; [apply b32_repr; lia|]. split; [discriminate|reflexivity]. Qed.
Theorem frexp_large : forall u f c lg k s n, ieee u f -> ieee u c -> sub_fmt f c -> lg_ok u c lg ->
  repr f n -> 2 ^ (hi f - 1) <= n ->
  float2_sig_exp u lg (S k) f c (Fin s n) = Ok (Fin s 0, hi f - u).
Proof. exact @frexp_wrong. Qed.
Print Assumptions frexp_large.
Theorem ilogb_ends_refuted :
  ~ forall n, repr b64 n -> 0 < n -> exists k e, ilogb 1074 (lg_exact 1074) k b64 (Fin false n) = Ok e.
Proof. exact @logb_ends_refuted_lemma. Qed.
Print Assumptions ilogb_ends_refuted.

(** * C180: fmod, is_odd, is_even *)

Theorem fmod_partial : forall u f c, ieee u f -> ieee u c -> sub_fmt f c ->
  forall lg, lg_ok u c lg -> forall k s n t m, repr f n -> repr f m ->
  2 ^ (lo c + prec c - 1) <= m ->
  fmod u lg (S k) f c (Fin s n) (Fin t m) = Ok (Fin s (n mod m)).
Proof. exact @fmod_user. Qed.
Print Assumptions fmod_partial.
Theorem fmod_special_partial : forall u lg k f c x y,
  (is_nan x \/ is_nan y \/ (exists s, x = Inf s) \/ (exists s, y = Fin s 0) ->
   exists r, fmod u lg k f c x y = Ok r /\ is_nan r)
  /\ (forall s n t, x = Fin s n -> y = Inf t -> fmod u lg k f c x y = Ok x)
  /\ (forall s t m, x = Fin s 0 -> y = Fin t m -> m <> 0 -> fmod u lg k f c x y = Ok x).
Proof. exact @fmod_special. Qed.
Print Assumptions fmod_special_partial.
Theorem odd_even_correct : forall u f c, ieee u f -> ieee u c -> sub_fmt f c ->
  forall lg, lg_ok u c lg -> forall k s n, repr f n ->
  is_odd u lg (S k) f c (Fin s n) = Ok (n mod (2 * 2 ^ u) =? 2 ^ u)
  /\ is_even u lg (S k) f c (Fin s n) = Ok (n mod (2 * 2 ^ u) =? 0).
Proof. exact @odd_even. Qed.
Print Assumptions odd_even_correct.
(* every float that is not zero, even a subnormal one, is a possible divisor *)
Example fmod_ex : repr b32 (1 * 2 ^ 925) /\ 2 ^ (lo b64 + prec b64 - 1) <= 1 * 2 ^ 925
  /\ 3 * 2 ^ 1074 mod (2 * 2 ^ 1074) = 2 ^ 1074.
Proof. split; [apply b32_repr; lia|]. split; [discriminate|reflexivity]. Qed.
Theorem fmod_ends_refuted :
  ~ forall n m, repr b64 n -> repr b64 m -> 0 < m ->
    exists k r, fmod 1074 (lg_exact 1074) k b64 b64 (Fin false n) (Fin false m) = Ok r.
Proof. exact @fmod_ends_refuted_lemma. Qed.
Print Assumptions fmod_ends_refuted.

(** * C181: remainder and remquo *)

Theorem remquo_partial : forall u f c, ieee u f -> ieee u c -> sub_fmt f c ->
  forall lg, lg_ok u c lg -> forall t, sgn t = true -> forall k s n t' m, repr f n -> repr f m ->
  2 ^ (lo c + prec c - 1) <= n -> 2 ^ (lo c + prec c - 1) <= m -> n / m + 1 <= tmax t ->
  exists b r q Q, rem_quo u lg (S k) f c t (Fin s n) (Fin t' m) = Ok (Fin b r, q)
    /\ ieee_rem (sg s n) (sg t' m) (sg b r) Q /\ q = Z.rem Q 8.
Proof. exact @rem_quo_user. Qed.
Print Assumptions remquo_partial.
(* 7.5 and 2 *)
Example remquo_ex : repr b64 (15 * 2 ^ 1073) /\ repr b64 (2 * 2 ^ 1074)
  /\ 2 ^ (lo b64 + prec b64 - 1) <= 2 * 2 ^ 1074
  /\ 15 * 2 ^ 1073 / (2 * 2 ^ 1074) + 1 <= tmax int
  /\ ieee_rem (15 * 2 ^ 1073) (2 * 2 ^ 1074) (- 2 ^ 1073) 4.
Proof.
  split; [apply b64_repr; lia|]. split; [apply b64_repr; lia|]. split; [discriminate|].
  split; [discriminate|]. split; [reflexivity|]. split; [discriminate|reflexivity].
Qed.
Theorem remquo_overflow : forall u c lg k t i, ieee u c -> lg_ok u c lg -> sgn t = true -> 2 <= tmax t ->
  tmax t < 2 ^ i -> 0 < i <= hi c - u - 1 ->
  rem_quo u lg (S k) c c t (Fin false (2 ^ (u + i))) (Fin false (2 ^ u)) = UB.
Proof. exact @rem_quo_over. Qed.
Print Assumptions remquo_overflow.
Example remquo_overflow_ex : tmax int < 2 ^ 31 /\ 0 < 31 <= hi b64 - 1074 - 1.
Proof. split; [reflexivity|]. cbn [hi b64]. lia. Qed.
