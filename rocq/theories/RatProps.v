(** Properties C71-C75: gcd, lcm and rational. *)
From Coq Require Import ZArith QArith Bool Lia.
From Verif Require Import Base BitModel BitSpec RatModel RatSpec RatProof RatProof2 RatProof3 RatProof4 RatProof5.
Open Scope Z_scope.

(** ** C71 *)

(** |a| and |b| representable, as in the standard's [numeric.ops.gcd] *)
Theorem gcd_correct : forall il md t r a b, is_val t a -> is_val t b ->
  (sgn t = true -> Z.abs a <= tmax t /\ Z.abs b <= tmax t) -> 6 * wid t + 1 <= Z.of_nat r ->
  gcd il md t r a b = Ok (Z.gcd a b).
Proof. exact gcd_lemma. Qed.
Print Assumptions gcd_correct.
(** for char and short even the most negative value is allowed if the result is representable *)
Theorem gcd_narrow_correct : forall il md t r a b, sgn t = true -> (lg t < il)%nat -> is_val t a -> is_val t b ->
  Z.gcd a b <= tmax t -> 6 * wid t + 1 <= Z.of_nat r -> gcd il md t r a b = Ok (Z.gcd a b).
Proof. exact gcd_narrow. Qed.
Print Assumptions gcd_narrow_correct.
Theorem gcd_min_undefined : forall il md t r b, sgn t = true -> (il <= lg t)%nat -> gcd il md t r (tmin t) b = UB.
Proof. exact gcd_min. Qed.
Print Assumptions gcd_min_undefined.
Theorem lcm_correct : forall il t r a b, is_val t a -> is_val t b -> Z.lcm a b <= tmax t -> wid t + 1 <= Z.of_nat r ->
  lcm il t r a b = Ok (Z.lcm a b).
Proof. exact lcm_lemma. Qed.
Print Assumptions lcm_correct.

Example c71_case :
  gcd 2 false (Ity true 2) 200 (-36) 84 = Ok 12 /\ gcd 2 false (Ity false 0) 60 252 105 = Ok 21 /\
  gcd 2 false (Ity true 0) 60 (-128) 6 = Ok 2 /\ gcd 2 false (Ity true 2) 200 (-2147483648) 6 = UB /\
  gcd 2 true (Ity false 3) 400 0 18446744073709551615 = Ok 18446744073709551615 /\
  lcm 2 (Ity true 2) 40 (-4) 6 = Ok 12 /\ lcm 2 (Ity true 2) 40 (-2147483648) 0 = Ok 0 /\ lcm 2 (Ity true 2) 40 65536 65535 = UB.
Proof. repeat apply conj; reflexivity. Qed.

(** ** C72 *)
Theorem rational_make_correct : forall il md t r, wide il t -> 6 * wid t + 1 <= Z.of_nat r ->
  forall n d, is_val t n -> is_val t d -> d <> 0 -> (n <> 0 -> n <> tmin t /\ d <> tmin t) ->
  exists z, make il md t r n d = Ok (Some z) /\ is_rat t z /\ (qv z == inject_Z n / inject_Z d)%Q.
Proof. exact make_correct. Qed.
Print Assumptions rational_make_correct.
Theorem rational_make_zero_correct : forall il md t r n, make il md t r n 0 = Ok None.
Proof. exact make_zero. Qed.
Print Assumptions rational_make_zero_correct.
Theorem rational_of_int_correct : forall il t, wide il t ->
  forall n, is_val t n -> is_rat t (of_int n) /\ (qv (of_int n) == inject_Z n)%Q.
Proof. exact (fun il t => of_int_correct il t O). Qed.
Print Assumptions rational_of_int_correct.

(** every result is exact and in lowest terms; the only other outcome is overflow *)
Theorem rational_add_correct : forall il md t r, wide il t -> 6 * wid t + 1 <= Z.of_nat r ->
  forall x y z, is_rat t x -> is_rat t y -> add il md t r true x y = Ok z -> is_rat t z /\ (qv z == qv x + qv y)%Q.
Proof. exact (fun il md t r Hw Hr => add_correct il md t r Hw Hr true). Qed.
Print Assumptions rational_add_correct.
Theorem rational_sub_correct : forall il md t r, wide il t -> 6 * wid t + 1 <= Z.of_nat r ->
  forall x y z, is_rat t x -> is_rat t y -> add il md t r false x y = Ok z -> is_rat t z /\ (qv z == qv x - qv y)%Q.
Proof. exact (fun il md t r Hw Hr => add_correct il md t r Hw Hr false). Qed.
Print Assumptions rational_sub_correct.
Theorem rational_mul_correct : forall il md t r, wide il t -> 6 * wid t + 1 <= Z.of_nat r ->
  forall x y z, is_rat t x -> is_rat t y -> mul il md t r x y = Ok z -> is_rat t z /\ (qv z == qv x * qv y)%Q.
Proof. exact mul_correct. Qed.
Print Assumptions rational_mul_correct.
Theorem rational_div_correct : forall il md t r, wide il t -> 6 * wid t + 1 <= Z.of_nat r ->
  forall x y z, is_rat t x -> is_rat t y -> div il md t r x y = Ok z ->
  (fst y = 0 <-> z = None) /\ (forall w, z = Some w -> is_rat t w /\ (qv w == qv x / qv y)%Q).
Proof. exact div_correct. Qed.
Print Assumptions rational_div_correct.

(** when there is no overflow: + and - if twice the square of the components fits, * and / whenever
    the result fits *)
Theorem rational_add_defined : forall il md t r, wide il t -> 6 * wid t + 1 <= Z.of_nat r ->
  forall plus x y b, is_rat t x -> is_rat t y -> within b x -> within b y -> 2 * (b * b) <= tmax t ->
  exists z, add il md t r plus x y = Ok z.
Proof. exact add_defined. Qed.
Print Assumptions rational_add_defined.
Theorem rational_mul_defined : forall il md t r, wide il t -> 6 * wid t + 1 <= Z.of_nat r ->
  forall x y z, is_rat t x -> is_rat t y -> Z.abs (fst x) <= tmax t -> Z.abs (fst y) <= tmax t ->
  is_rat t z -> (qv z == qv x * qv y)%Q -> mul il md t r x y = Ok z.
Proof. exact mul_defined. Qed.
Print Assumptions rational_mul_defined.
Theorem rational_div_defined : forall il md t r, wide il t -> 6 * wid t + 1 <= Z.of_nat r ->
  forall x y z, is_rat t x -> is_rat t y -> Z.abs (fst x) <= tmax t -> Z.abs (fst y) <= tmax t -> fst y <> 0 ->
  is_rat t z -> Z.abs (fst z) <= tmax t -> (qv z == qv x / qv y)%Q -> div il md t r x y = Ok (Some z).
Proof. exact div_defined. Qed.
Print Assumptions rational_div_defined.

Theorem rational_neg_correct : forall il t, wide il t -> forall x, is_rat t x -> fst x <> tmin t ->
  exists z, neg t x = Ok z /\ is_rat t z /\ (qv z == - qv x)%Q.
Proof. exact (fun il t => neg_correct il t O). Qed.
Print Assumptions rational_neg_correct.
Theorem rational_abs_correct : forall il t, wide il t -> forall x, is_rat t x -> fst x <> tmin t ->
  exists z, abs_r t x = Ok z /\ is_rat t z /\ (0 <= qv z)%Q /\ (qv z == qv x \/ qv z == - qv x)%Q.
Proof. exact (fun il t => abs_correct il t O). Qed.
Print Assumptions rational_abs_correct.
Theorem rational_inc_correct : forall il t, wide il t -> forall x z, is_rat t x -> inc t x = Ok z ->
  is_rat t z /\ (qv z == qv x + 1)%Q.
Proof. exact (fun il t => inc_correct il t O). Qed.
Print Assumptions rational_inc_correct.
Theorem rational_dec_correct : forall il t, wide il t -> forall x z, is_rat t x -> dec_r t x = Ok z ->
  is_rat t z /\ (qv z == qv x - 1)%Q.
Proof. exact (fun il t => dec_correct il t O). Qed.
Print Assumptions rational_dec_correct.
Theorem rational_inc_defined : forall il t, wide il t -> forall x, is_rat t x -> is_val t (fst x + snd x) -> exists z, inc t x = Ok z.
Proof. exact (fun il t => inc_defined il t O). Qed.
Print Assumptions rational_inc_defined.
Theorem rational_dec_defined : forall il t, wide il t -> forall x, is_rat t x -> is_val t (fst x - snd x) -> exists z, dec_r t x = Ok z.
Proof. exact (fun il t => dec_defined il t O). Qed.
Print Assumptions rational_dec_defined.

Example c72_case : wide 2 (Ity true 2) /\ is_rat (Ity true 2) (-5, 6) /\ is_rat (Ity true 2) (3, 10) /\
  make 2 false (Ity true 2) 200 10 (-12) = Ok (Some (-5, 6)) /\ add 2 false (Ity true 2) 200 true (-5, 6) (3, 10) = Ok (-8, 15) /\
  add 2 false (Ity true 2) 200 false (-5, 6) (3, 10) = Ok (-17, 15) /\ mul 2 false (Ity true 2) 200 (-5, 6) (3, 10) = Ok (-1, 4) /\
  div 2 false (Ity true 2) 200 (3, 10) (-5, 6) = Ok (Some (-9, 25)) /\ div 2 false (Ity true 2) 200 (3, 10) (0, 1) = Ok None /\
  add 2 false (Ity true 2) 200 true (1, 65536) (1, 65535) = UB /\ inc (Ity true 2) (-5, 6) = Ok (1, 6).
Proof.
  split; [split; [reflexivity|cbn; lia]|]. split; [|split].
  1, 2: repeat split; vm_compute; congruence.
  repeat apply conj; reflexivity.
Qed.

(** ** C73 *)

(** with another object on the right, the compound assignments compute what the operators do *)
Theorem rational_assign_partial : forall il md t r x y,
  add_assign il md t r true false x y = add il md t r true x y /\ add_assign il md t r false false x y = add il md t r false x y /\
  mul_assign il md t r false x y = mul il md t r x y /\ div_assign il md t r false x y = div il md t r x y.
Proof. exact (fun il md t r x y => conj (add_assign_eq il md t r true x y) (conj (add_assign_eq il md t r false x y) (conj (mul_assign_eq il md t r x y) (div_assign_eq il md t r x y)))). Qed.
Print Assumptions rational_assign_partial.
Theorem rational_mul_assign_self_correct : forall il md t r x, wide il t -> is_rat t x ->
  mul_assign il md t r true x x = mul il md t r x x.
Proof. exact mul_assign_self'. Qed.
Print Assumptions rational_mul_assign_self_correct.
(** x += x leaves the numerator of x, x -= x its negation; both are wrong for all fractions but halves
    resp. for all fractions *)
Theorem rational_add_assign_self_refuted : forall il md t r, wide il t -> 6 * wid t + 1 <= Z.of_nat r ->
  forall x, is_rat t x -> 3 <= snd x -> Z.abs (fst x) <= tmax t ->
  exists z, add_assign il md t r true true x x = Ok z /\ ~ (qv z == qv x + qv x)%Q.
Proof. exact add_assign_self_wrong. Qed.
Print Assumptions rational_add_assign_self_refuted.
Theorem rational_sub_assign_self_refuted : forall il md t r, wide il t -> 6 * wid t + 1 <= Z.of_nat r ->
  forall x, is_rat t x -> 2 <= snd x -> Z.abs (fst x) <= tmax t ->
  exists z, add_assign il md t r false true x x = Ok z /\ ~ (qv z == 0)%Q.
Proof. exact sub_assign_self_wrong. Qed.
Print Assumptions rational_sub_assign_self_refuted.
(** x /= x leaves a zero denominator *)
Theorem rational_div_assign_self_refuted : forall il md t r, wide il t -> 6 * wid t + 1 <= Z.of_nat r ->
  forall x, is_rat t x -> 2 <= Z.abs (fst x) <= tmax t -> exists n, div_assign il md t r true x x = Ok (Some (n, 0)).
Proof. exact div_assign_self. Qed.
Print Assumptions rational_div_assign_self_refuted.

Example c73_case : is_rat (Ity true 2) (2, 3) /\
  add_assign 2 false (Ity true 2) 200 true true (2, 3) (2, 3) = Ok (2, 1) /\ add 2 false (Ity true 2) 200 true (2, 3) (2, 3) = Ok (4, 3) /\
  add_assign 2 false (Ity true 2) 200 false true (2, 3) (2, 3) = Ok (-2, 1) /\
  div_assign 2 false (Ity true 2) 200 true (2, 3) (2, 3) = Ok (Some (1, 0)) /\
  mul_assign 2 false (Ity true 2) 200 true (2, 3) (2, 3) = Ok (4, 9).
Proof. split; [repeat split; vm_compute; congruence|]. repeat apply conj; reflexivity. Qed.

(** ** C74 *)
Theorem rational_eq_correct : forall t x y, is_rat t x -> is_rat t y -> eq_rr x y = true <-> (qv x == qv y)%Q.
Proof. exact eq_lemma. Qed.
Print Assumptions rational_eq_correct.
Theorem rational_less_correct : forall il t r, wide il t -> 6 * wid t + 1 <= Z.of_nat r ->
  forall x y, is_rat t x -> is_rat t y -> exists b, less_rr t r x y = Ok b /\ (b = true <-> (qv x < qv y)%Q).
Proof. exact less_lemma. Qed.
Print Assumptions rational_less_correct.
Theorem rational_others_correct : forall il t r, wide il t -> 6 * wid t + 1 <= Z.of_nat r ->
  forall x y, is_rat t x -> is_rat t y ->
  (exists b, greater_rr t r x y = Ok b /\ (b = true <-> (qv y < qv x)%Q)) /\
  (exists b, le_rr t r x y = Ok b /\ (b = true <-> (qv x <= qv y)%Q)) /\
  (exists b, ge_rr t r x y = Ok b /\ (b = true <-> (qv y <= qv x)%Q)).
Proof. exact others_lemma. Qed.
Print Assumptions rational_others_correct.

Example c74_case : is_rat (Ity true 2) (-2147483648, 2147483647) /\ is_rat (Ity true 2) (-2147483647, 2147483646) /\
  less_rr (Ity true 2) 200 (-2147483648, 2147483647) (-2147483647, 2147483646) = Ok false /\
  less_rr (Ity true 2) 200 (-2147483647, 2147483646) (-2147483648, 2147483647) = Ok true /\
  less_rr (Ity true 2) 200 (5, 8) (8, 13) = Ok false /\ less_rr (Ity true 2) 200 (-5, 8) (-8, 13) = Ok true.
Proof. split; [|split]. 1, 2: repeat split; vm_compute; congruence. repeat apply conj; reflexivity. Qed.

(** ** C75 *)
Theorem rational_eq_int_correct : forall il t, wide il t -> forall x n, is_rat t x -> eq_ri x n = true <-> (qv x == inject_Z n)%Q.
Proof. exact (fun il t => eq_int_lemma il t O). Qed.
Print Assumptions rational_eq_int_correct.
(** right for the numbers that are not negative, for integers, and for integers n that are not just
    above x *)
Theorem rational_less_int_partial : forall il t r, wide il t -> 6 * wid t + 1 <= Z.of_nat r ->
  forall x n, is_rat t x -> 0 <= fst x \/ snd x = 1 \/ ~ (fst x / snd x < n <= fst x / snd x + snd x) ->
  exists b, less_ri t r x n = Ok b /\ (b = true <-> (qv x < inject_Z n)%Q).
Proof. exact less_ri_lemma. Qed.
Print Assumptions rational_less_int_partial.
Theorem rational_int_less_partial : forall il t r, wide il t -> 6 * wid t + 1 <= Z.of_nat r ->
  forall x n, is_rat t x -> 0 <= fst x \/ snd x = 1 \/ ~ (fst x / snd x < n <= fst x / snd x + snd x) ->
  exists b, less_ir t r n x = Ok b /\ (b = true <-> (inject_Z n < qv x)%Q).
Proof. exact less_ir_lemma. Qed.
Print Assumptions rational_int_less_partial.
Theorem rational_others_int_partial : forall il t r, wide il t -> 6 * wid t + 1 <= Z.of_nat r ->
  forall x n, is_rat t x -> 0 <= fst x \/ snd x = 1 \/ ~ (fst x / snd x < n <= fst x / snd x + snd x) ->
  (exists b, greater_ri t r x n = Ok b /\ (b = true <-> (inject_Z n < qv x)%Q)) /\
  (exists b, le_ri t r x n = Ok b /\ (b = true <-> (qv x <= inject_Z n)%Q)) /\
  (exists b, ge_ri t r x n = Ok b /\ (b = true <-> (inject_Z n <= qv x)%Q)).
Proof. exact others_ri_lemma. Qed.
Print Assumptions rational_others_int_partial.
(** and wrong in all other cases *)
Theorem rational_less_int_refuted : forall il t r, wide il t -> 6 * wid t + 1 <= Z.of_nat r ->
  forall x n, is_rat t x -> fst x < 0 -> snd x <> 1 -> fst x / snd x < n <= fst x / snd x + snd x ->
  less_ri t r x n = Ok false /\ (qv x < inject_Z n)%Q.
Proof. exact less_ri_wrong. Qed.
Print Assumptions rational_less_int_refuted.
Theorem rational_int_less_refuted : forall il t r, wide il t -> 6 * wid t + 1 <= Z.of_nat r ->
  forall x n, is_rat t x -> fst x < 0 -> snd x <> 1 -> fst x / snd x < n <= fst x / snd x + snd x ->
  less_ir t r n x = Ok true /\ (qv x < inject_Z n)%Q.
Proof. exact less_ir_wrong. Qed.
Print Assumptions rational_int_less_refuted.

Example c75_case : is_rat (Ity true 2) (-1, 2) /\ less_ri (Ity true 2) 200 (-1, 2) 0 = Ok false /\ less_ir (Ity true 2) 200 0 (-1, 2) = Ok true /\
  less_ri (Ity true 2) 200 (-1, 2) (-1) = Ok false /\ less_ri (Ity true 2) 200 (-1, 2) 2 = Ok true /\ less_ri (Ity true 2) 200 (1, 2) 1 = Ok true.
Proof. split; [repeat split; vm_compute; congruence|]. repeat apply conj; reflexivity. Qed.
